(** Concrete extensions. *)
From Coq Require Import List ZArith QArith Qcanon Bool Lia.
From Verif Require Import Base Num NumFacts Interval IntervalFacts Curve Points PointsSpec PointsQuery PointsOps PointsDec PointsHist PointsRefute PointsTop PointsEx.
From Verif Require Import BaseEx Combine CombineEx Extension ExtensionFacts ExtensionTop ExtensionPts.
Import ListNotations.
Open Scope bool_scope.

Definition is_ok {A} (r : res A) : bool := match r with Ok _ => true | Err _ => false end.
Lemma is_ok_ex {A} (r : res A) : is_ok r = true -> exists v, r = Ok v.
Proof. destruct r; [ eauto | discriminate ]. Qed.
Definition noreg (a b : xq) : res (option (line xq)) := Ok None.
Definition yes (_ _ : ival xq) : bool := true.
Definition S0 : src xq := pts_src noreg ex_u0.     (* (0,0) (1,1) (2,2) *)
Definition S1 : src xq := pts_src noreg ex_u.      (* (0,0) (1,1) (2,2) (3,9) *)
Definition d23 : ival xq := iv (fz 2) (fz 3) true false.

Lemma const_goodb s st en : i_is_empty (dom s) = false ->
  is_ok (c_y (s_c s) (i_start (dom s))) && is_ok (c_y (s_c s) (i_end (dom s))) = true -> const_good s st en.
Proof.
  intros E H. apply andb_true_iff in H. destruct H as [ A B ]. unfold const_good. rewrite E.
  split; intros _; now apply is_ok_ex.
Qed.
Lemma tan_goodb mode own s st en : is_ok (tangent_edge mode own s true) && is_ok (tangent_edge mode own s false) = true ->
  tan_good mode own s st en.
Proof.
  intros H. apply andb_true_iff in H. destruct H as [ A B ]. split; intros _; now apply is_ok_ex.
Qed.

(** a constant extension asked at 5, then told of the append of (3, 9) *)
Definition KC := constant_ext (T := xq).
Definition ec0 := ext_init KC S0 true true false.
Definition ec1 := fst (fst (ext_y KC S0 ec0 (fz 5))).
Definition ec2 := fst (ext_begin yes yes ec1 d23).
Definition ec3 := fst (fst (ext_end KC yes yes S1 ec2 d23)).
Lemma ec3_lives : const_lives yes yes true true S1 ec3.
Proof.
  apply (lv_end KC yes yes const_good const_alike true true S0 S1 ec2 d23).
  - apply lv_begin, lv_y. apply (lv_init KC yes yes const_good const_alike S0 true true).
    apply const_goodb; vm_compute; reflexivity.
  - apply const_goodb; vm_compute; reflexivity.
  - left. vm_compute. reflexivity.
Qed.
Definition KT := tangent_ext (T := xq) TSlope None.
Notation tan_lives K own le ge := (lives (tangent_ext K own) le ge (tan_good K own) (tan_alike K own)).
Definition et0 := ext_init KT S0 true true false.
Definition et1 := fst (fst (ext_y KT S0 et0 (fz 5))).
Definition et2 := fst (ext_begin yes yes et1 d23).
Definition et3 := fst (fst (ext_end KT yes yes S1 et2 d23)).
Lemma et3_lives : tan_lives TSlope None yes yes true true S1 et3.
Proof.
  apply (lv_end KT yes yes (tan_good TSlope None) (tan_alike TSlope None) true true S0 S1 et2 d23).
  - apply lv_begin, lv_y. apply (lv_init KT yes yes (tan_good TSlope None) (tan_alike TSlope None) S0 true true).
    apply tan_goodb. vm_compute. reflexivity.
  - apply tan_goodb. vm_compute. reflexivity.
  - left. vm_compute. reflexivity.
Qed.

(** ** Stepping *)

(** The limit goes to the wrong call: over a Generic source on [0, 4] the step
    after 4 is 2, and sampling up to 6 raises. *)
Definition SG : src xq := mkS (gid (iv (fz 0) (fz 4) false false) None) (fun _ _ => Ok (nv 1)) noreg.
Lemma limit_back : ext_next SG true (fz 4) (Some (fz 1)) None = Ok (Some (fz 5))
  /\ ext_next SG true (fz 4) (Some (fz 1)) (Some (fz 6)) = Ok (Some (fz 2)).
Proof. split; val. Qed.

(** The extension as seen by sample_points. *)
Definition ext_crv {F} (K : kind xq F) (s : src xq) (e : ext xq F) (d : ival xq) (m : option xq) : crv xq (option xq) :=
  mkC d (fun x => snd (ext_y K s e x)) (ext_next s (e_end e)) (ext_prev s (e_start e)) m.
Definition eg := fst (fst (ext_dom KC SG (ext_init KC SG false true false))).
Lemma eg_dom : snd (ext_dom KC SG (ext_init KC SG false true false)) = Ok (iv (fz 0) PInf false true).
Proof. reflexivity. Qed.
Lemma sample_raises :
  sample_points 20 (ext_crv KC SG eg (iv (fz 0) PInf false true) None) (Some (iv (fz 3) (fz 6) false false)) (Some (fz 1)) None = Err EExc.
Proof. vm_compute. reflexivity. Qed.

(** Steps back into the start extension are not undone by steps forward. *)
Lemma steps_apart : ext_prev S1 true (fz (-1)) (Some (fr 1 2)) None = Ok (Some (fz (-2)))
  /\ ext_next S1 true (fz (-2)) (Some (fr 1 2)) None = Ok (Some (fz 0)).
Proof. split; val. Qed.

(** ** A domain that is not renewed *)

(** A point is appended to a one-point source whose tangent extension has
    reported its domain: whatever the interval comparisons mean, the reported
    domain does not gain the extension; if they recognise the update, the
    value outside the domain is there, and nothing is announced. *)
Definition p1 : npts := st (p_init [(fz 0, nv 0)] ILinear true).
Definition p2 : npts := st (p_append p1 (fz 1, nv 1)).
Definition SA : src xq := pts_src noreg p1.
Definition SB : src xq := pts_src noreg p2.
Definition d01 : ival xq := iv (fz 0) (fz 1) true false.
Definition es0 := fst (fst (ext_dom KT SA (ext_init KT SA false true false))).
Definition es1 le ge := fst (fst (ext_source KT le ge SB es0 d01)).
Definition rd (o : ext xq (line xq) * list (ev xq) * res (ival xq)) (x : xq) : bool :=
  match snd o with Ok d => i_contains d x | Err _ => true end.
Lemma stale_domain le ge : rd (ext_dom KT SB (es1 le ge)) (fz 5) = false
  /\ (ge d01 i_empty = true -> snd (ext_y KT SB (es1 le ge) (fz 5)) = Ok (nv 5)
        /\ snd (fst (ext_source KT le ge SB es0 d01)) = [])
  /\ (ge d01 i_empty = false -> snd (ext_y KT SB (es1 le ge) (fz 5)) = Ok None).
Proof.
  assert (N : in_extension le ge es0 d01 = ge d01 i_empty) by reflexivity.
  assert (X : forall b, ge d01 i_empty = b ->
    ext_source KT le ge SB es0 d01 = ext_source KT (fun _ _ => b) (fun _ _ => b) SB es0 d01).
  { intros b Hb. assert (M : in_extension (fun _ _ => b) (fun _ _ => b) es0 d01 = b) by reflexivity.
    unfold ext_source, ext_begin. rewrite N, M, Hb. destruct (begin_update (e_upd es0) _) as [ u n ].
    unfold ext_end.
    change (in_extension le ge (set_eupd es0 u) d01) with (in_extension le ge es0 d01).
    change (in_extension (fun _ _ => b) (fun _ _ => b) (set_eupd es0 u) d01) with (in_extension (fun _ _ : ival xq => b) (fun _ _ => b) es0 d01).
    rewrite N, M, Hb. reflexivity. }
  unfold es1. destruct (ge d01 i_empty) eqn:G; rewrite (X _ eq_refl); clear X N G.
  - split; [ vm_compute; reflexivity | ]. split; [ intros _ | discriminate ]. split; [ val | vm_compute; reflexivity ].
  - split; [ vm_compute; reflexivity | ]. split; [ discriminate | intros _; val ].
Qed.
(** The same extension made afresh has the value and the domain. *)
Lemma fresh_domain : rd (ext_dom KT SB (ext_init KT SB false true false)) (fz 5) = true
  /\ snd (ext_y KT SB (ext_init KT SB false true false) (fz 5)) = Ok (nv 5).
Proof. split; [ vm_compute; reflexivity | val ]. Qed.

(** An update that is not recognised leaves the old values. *)
Definition no (_ _ : ival xq) : bool := false.
Lemma unrecognised_ex : let e := fst (fst (ext_source KC no no S1 ec1 d23)) in
  snd (ext_y KC S1 e (fz 5)) = Ok (nv 2) /\ snd (ext_y KC S1 (ext_init KC S1 true true false) (fz 5)) = Ok (nv 9).
Proof. split; val. Qed.
