(** Sums, products and other combinations of curves in binary64. *)
From Coq Require Import List ZArith Reals Lia Lra Psatz Bool SpecFloat.
From Flocq Require Import Core BinarySingleNaN.
From Verif Require Import Base Num Interval Curve Points Combine B64Facts GridFacts StepB64 IrregB64 ErrB64 IntB64.
Import ListNotations.
Open Scope Z_scope.
#[local] Existing Instances Hprec Hmax Hval Hexp.

(** ** The order of doubles with the infinities *)
Definition number64 (x : b64) : Prop := valid_binary 53 1024 x = true /\ x <> S754_nan.
Definition ext64 (x : b64) : R := match x with S754_infinity true => - bpow radix2 1024 | S754_infinity false => bpow radix2 1024 | x => val64 x end%R.
Lemma number_of x : number64 x -> exists b : bf, x = B2SF b /\ is_nan b = false.
Proof. intros [V N]. exists (SF2B x V). rewrite B2SF_SF2B. split; [reflexivity|]. destruct x; try reflexivity. elim N; reflexivity. Qed.
Lemma finite_number x : finite64 x -> number64 x. Proof. intros [V F]. split; [exact V|]. intros ->. discriminate F. Qed.
Lemma finite_ext x : finite64 x -> ext64 x = val64 x. Proof. intros [V F]. destruct x; try reflexivity. discriminate F. Qed.
Lemma ext_bound (b : bf) : is_finite b = true -> (- bpow radix2 1024 < B2R b < bpow radix2 1024)%R.
Proof. intros F. pose proof (abs_B2R_lt_emax 53 1024 b) as A. apply Rabs_lt_inv in A. exact A. Qed.
Lemma big_pos : (0 < bpow radix2 1024)%R. Proof. apply bpow_gt_0. Qed.
Lemma ext_cases (b : bf) : is_nan b = false -> (is_finite b = true /\ ext64 (B2SF b) = B2R b) \/ (exists s, b = B754_infinity s).
Proof. destruct b; intros N; try discriminate; [left; split; reflexivity|right; eauto|left; split; reflexivity]. Qed.
Lemma ltb_ext x y : number64 x -> number64 y -> SFltb x y = Rlt_bool (ext64 x) (ext64 y).
Proof.
  intros X Y. destruct (number_of _ X) as (a & -> & NA). destruct (number_of _ Y) as (b & -> & NB). pose proof big_pos as BP.
  destruct (ext_cases a NA) as [[FA EA]|[s ->]], (ext_cases b NB) as [[FB EB]|[s' ->]].
  - rewrite EA, EB. apply ltb_val; assumption.
  - rewrite EA. pose proof (ext_bound a FA). destruct s'; cbn [ext64 B2SF]; [rewrite Rlt_bool_false by lra|rewrite Rlt_bool_true by lra]; destruct a as [sg| | |sg m e B]; try discriminate FA; try reflexivity; destruct sg; reflexivity.
  - rewrite EB. pose proof (ext_bound b FB). destruct s; cbn [ext64 B2SF]; [rewrite Rlt_bool_true by lra|rewrite Rlt_bool_false by lra]; destruct b as [sg| | |sg m e B]; try discriminate FB; try reflexivity; destruct sg; reflexivity.
  - destruct s, s'; cbn [ext64 B2SF]; [rewrite Rlt_bool_false by lra|rewrite Rlt_bool_true by lra|rewrite Rlt_bool_false by lra|rewrite Rlt_bool_false by lra]; reflexivity.
Qed.
Lemma eqb_ext x y : number64 x -> number64 y -> SFeqb x y = Req_bool (ext64 x) (ext64 y).
Proof.
  intros X Y. destruct (number_of _ X) as (a & -> & NA). destruct (number_of _ Y) as (b & -> & NB). pose proof big_pos as BP.
  destruct (ext_cases a NA) as [[FA EA]|[s ->]], (ext_cases b NB) as [[FB EB]|[s' ->]].
  - rewrite EA, EB. apply eqb_val; assumption.
  - rewrite EA. pose proof (ext_bound a FA). rewrite Req_bool_false by (destruct s'; cbn [ext64 B2SF]; lra). destruct s', a as [sg| | |sg m e B]; try discriminate FA; try reflexivity; destruct sg; reflexivity.
  - rewrite EB. pose proof (ext_bound b FB). rewrite Req_bool_false by (destruct s; cbn [ext64 B2SF]; lra). destruct s, b as [sg| | |sg m e B]; try discriminate FB; try reflexivity; destruct sg; reflexivity.
  - destruct s, s'; cbn [ext64 B2SF]; [rewrite Req_bool_true by lra|rewrite Req_bool_false by lra|rewrite Req_bool_false by lra|rewrite Req_bool_true by lra]; reflexivity.
Qed.

(** ** Intersections *)
Definition ival64 (i : ival b64) : Prop := number64 (i_start i) /\ number64 (i_end i).
Definition after_start (i : ival b64) (v : R) : Prop := (ext64 (i_start i) < v \/ (i_so i = false /\ ext64 (i_start i) = v))%R.
Definition before_end (i : ival b64) (v : R) : Prop := (v < ext64 (i_end i) \/ (i_eo i = false /\ v = ext64 (i_end i)))%R.
Definition in64 (i : ival b64) (v : R) : Prop := after_start i v /\ before_end i v.
Lemma empty_none i v : ival64 i -> i_is_empty i = true -> ~ in64 i v.
Proof.
  intros [A B] E [S T]. unfold i_is_empty, n_gtb in E. change (@n_ltb b64 B64) with SFltb in E. change (@n_eqb b64 B64) with SFeqb in E. rewrite ltb_ext, eqb_ext in E by assumption.
  unfold after_start, before_end in *. destruct (Rlt_bool_spec (ext64 (i_end i)) (ext64 (i_start i))); [lra|]. cbn [orb] in E. apply andb_prop in E as [Q O]. destruct (Req_bool_spec (ext64 (i_start i)) (ext64 (i_end i))); [|discriminate].
  destruct (i_so i), (i_eo i); try discriminate O; destruct S as [S|[S S']], T as [T|[T T']]; try discriminate; lra.
Qed.
Lemma contains_in64 i x : ival64 i -> number64 x -> (i_contains i x = true <-> in64 i (ext64 x)).
Proof.
  intros I X. unfold i_contains, i_contains_gen. cbn [negb orb]. rewrite !andb_true_iff, negb_true_iff.
  assert (S : above_start i x = true <-> after_start i (ext64 x)).
  { unfold above_start, after_start. change (@n_ltb b64 B64) with SFltb. change (@n_eqb b64 B64) with SFeqb. rewrite ltb_ext, eqb_ext by (assumption || apply I).
    destruct (Rlt_bool_spec (ext64 (i_start i)) (ext64 x)); cbn [orb]; [split; auto|]. destruct (i_so i); cbn [negb andb]; [split; [discriminate|intros [Q|[Q _]]; [lra|discriminate]]|].
    destruct (Req_bool_spec (ext64 (i_start i)) (ext64 x)); split; auto; try discriminate. intros [Q|[_ Q]]; [lra|contradiction]. }
  assert (E : below_end i x = true <-> before_end i (ext64 x)).
  { unfold below_end, before_end. change (@n_ltb b64 B64) with SFltb. change (@n_eqb b64 B64) with SFeqb. rewrite ltb_ext, eqb_ext by (assumption || apply I).
    destruct (Rlt_bool_spec (ext64 x) (ext64 (i_end i))); cbn [orb]; [split; auto|]. destruct (i_eo i); cbn [negb andb]; [split; [discriminate|intros [Q|[Q _]]; [lra|discriminate]]|].
    destruct (Req_bool_spec (ext64 x) (ext64 (i_end i))); split; auto; try discriminate. intros [Q|[_ Q]]; [lra|contradiction]. }
  split.
  - intros [[_ A] B]. split; [apply S, A|apply E, B].
  - intros IN. split; [split|]; [|apply S, IN|apply E, IN]. destruct (i_is_empty i) eqn:EM; [|reflexivity]. elim (empty_none i _ I EM IN).
Qed.
Lemma inter_in64 a b : ival64 a -> ival64 b -> ival64 (i_inter2 a b) /\ forall v, in64 (i_inter2 a b) v <-> in64 a v /\ in64 b v.
Proof.
  intros A B. assert (Z : ival64 (@i_empty b64 B64)) by (split; split; (reflexivity || discriminate)).
  assert (NZ : forall v, ~ in64 (@i_empty b64 B64) v) by (intros v; apply empty_none; [exact Z|reflexivity]).
  unfold i_inter2. destruct (i_is_empty a) eqn:EA; cbn [orb]; [split; [exact Z|]; intros v; split; [intros K; elim (NZ v K)|intros [K _]; elim (empty_none a v A EA K)]|].
  destruct (i_is_empty b) eqn:EB; [split; [exact Z|]; intros v; split; [intros K; elim (NZ v K)|intros [_ K]; elim (empty_none b v B EB K)]|].
  destruct (later_start a b) as [s so] eqn:ES. destruct (earlier_end a b) as [e eo] eqn:EE.
  assert (S : number64 s /\ forall v, after_start (mkI s e so eo) v <-> after_start a v /\ after_start b v).
  { unfold later_start in ES. change (@n_ltb b64 B64) with SFltb in ES. rewrite !ltb_ext in ES by (apply A || apply B).
    destruct (Rlt_bool_spec (ext64 (i_start a)) (ext64 (i_start b))); [injection ES as <- <-; split; [apply B|]; intros v; unfold after_start; cbn [i_start i_so]; split; [intros K; split; [|exact K]; left; destruct K as [K|[_ K]]; lra|intros [_ K]; exact K]|].
    destruct (Rlt_bool_spec (ext64 (i_start b)) (ext64 (i_start a))); [injection ES as <- <-; split; [apply A|]; intros v; unfold after_start; cbn [i_start i_so]; split; [intros K; split; [exact K|]; left; destruct K as [K|[_ K]]; lra|intros [K _]; exact K]|].
    injection ES as <- <-. split; [apply A|]. intros v. unfold after_start. cbn [i_start i_so]. assert (Q : ext64 (i_start a) = ext64 (i_start b)) by lra. rewrite <- Q.
    destruct (i_so a), (i_so b); cbn [orb]; intuition (try discriminate; lra). }
  assert (E : number64 e /\ forall v, before_end (mkI s e so eo) v <-> before_end a v /\ before_end b v).
  { unfold earlier_end in EE. change (@n_ltb b64 B64) with SFltb in EE. rewrite !ltb_ext in EE by (apply A || apply B).
    destruct (Rlt_bool_spec (ext64 (i_end a)) (ext64 (i_end b))); [injection EE as <- <-; split; [apply A|]; intros v; unfold before_end; cbn [i_end i_eo]; split; [intros K; split; [exact K|]; left; destruct K as [K|[_ K]]; lra|intros [K _]; exact K]|].
    destruct (Rlt_bool_spec (ext64 (i_end b)) (ext64 (i_end a))); [injection EE as <- <-; split; [apply B|]; intros v; unfold before_end; cbn [i_end i_eo]; split; [intros K; split; [|exact K]; left; destruct K as [K|[_ K]]; lra|intros [_ K]; exact K]|].
    injection EE as <- <-. split; [apply A|]. intros v. unfold before_end. cbn [i_end i_eo]. assert (Q : ext64 (i_end a) = ext64 (i_end b)) by lra. rewrite <- Q.
    destruct (i_eo a), (i_eo b); cbn [orb]; intuition (try discriminate; lra). }
  assert (I : ival64 (mkI s e so eo)) by (split; [apply S|apply E]).
  assert (IN : forall v, in64 (mkI s e so eo) v <-> in64 a v /\ in64 b v).
  { intros v. unfold in64. destruct S as [_ S], E as [_ E]. rewrite S, E. tauto. }
  destruct (i_is_empty (mkI s e so eo)) eqn:EI; [|split; assumption].
  split; [exact Z|]. intros v. rewrite <- IN. split; [intros K; elim (NZ v K)|intros K; elim (empty_none _ v I EI K)].
Qed.
Lemma inter_list l : forall a, ival64 a -> Forall ival64 l -> ival64 (fold_left i_inter2 l a) /\ forall v, in64 (fold_left i_inter2 l a) v <-> in64 a v /\ Forall (fun i => in64 i v) l.
Proof.
  induction l as [|b l IH]; intros a A L; cbn [fold_left].
  - split; [exact A|]. intros v. split; [intros K; split; [exact K|constructor]|tauto].
  - inversion_clear L. destruct (inter_in64 a b A H) as [I E]. destruct (IH _ I H0) as [I2 E2]. split; [exact I2|]. intros v. rewrite E2, E. split.
    + intros [[P Q] F]. split; [exact P|constructor; assumption].
    + intros [P F]. inversion_clear F. tauto.
Qed.
Lemma agg_inside {V} (funcs : list (crv b64 V)) x : funcs <> [] -> Forall (fun f => ival64 (c_dom f)) funcs -> number64 x ->
  (i_contains (agg_dom false funcs) x = true <-> Forall (fun f => i_contains (c_dom f) x = true) funcs).
Proof.
  intros NE D X. destruct funcs as [|f l]; [contradiction|]. unfold agg_dom, i_inter. cbn [map]. inversion_clear D.
  assert (L : Forall ival64 (map c_dom l)) by (apply Forall_map; exact H0). destruct (inter_list _ (c_dom f) H L) as [I E].
  rewrite (contains_in64 _ x I X), E, Forall_map. rewrite Forall_cons_iff, (contains_in64 _ x H X). apply and_iff_compat_l.
  clear - H0 X. induction H0 as [|g l G F IH]; [split; constructor|]. rewrite !Forall_cons_iff, IH, (contains_in64 _ x G X). reflexivity.
Qed.
Lemma agg_value {V W} (funcs : list (crv b64 V)) (tfm : b64 -> list V -> res W) d x vs : funcs <> [] -> Forall (fun f => ival64 (c_dom f)) funcs -> number64 x ->
  Forall2 (fun f v => i_contains (c_dom f) x = true /\ c_y f x = Ok v) funcs vs -> c_y (aggregate false d tfm funcs) x = tfm x vs.
Proof.
  intros NE D X E. cbn [aggregate c_y]. rewrite (proj2 (agg_inside funcs x NE D X)) by (clear - E; induction E as [|f v l r [A _] _ IH]; constructor; assumption). cbn [negb].
  assert (M : rmapM (fun f => c_y f x) funcs = Ok vs) by (clear - E; induction E as [|f v l r [_ A] _ IH]; cbn [rmapM]; [reflexivity|rewrite A; cbn [rbind]; rewrite IH; reflexivity]).
  rewrite M. reflexivity.
Qed.
