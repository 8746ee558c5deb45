(** f + f.map(g): a callback of the sum reads a stale domain. *)
From Coq Require Import List ZArith QArith Qcanon Bool Lia Arith Permutation.
From Verif Require Import Base Num NumFacts Interval IntervalFacts Curve Points PointsSpec PointsOps PointsDec PointsRefute PointsHist PointsTop PointsEx BaseTop BaseOpt BaseEx Graph Combine CombineFacts CombineTop CombineLine CombinePiece CombineExpr CombineEx UpdFacts GraphFacts GraphSettle GraphTop Live LiveNet LiveSpec LiveFacts LiveTop LivePoints LiveEnd LiveEx LiveReads LiveCalls LiveHist.
Import ListNotations.

(** 0: a Points curve; 1: -f; 2: f + (-f) *)
Definition rnet : list (node xq) := [ NSource; NMap false MIN_STEP additive_inverse_f 0; NAggregate false None add_f [0; 1]%nat ].
Definition renv : nat -> ncurve := fun _ => p_crv ex_u.
Definition rd : ival xq := mkI (fz 3) (fz 4) true false.
(** the sum's domain is read before the update and in every callback *)
Definition rstate : nstate xq := match read_dom renv rnet 4 (fun _ => upd_init) 2 with Ok (s, _) => s | Err _ => fun _ => upd_init end.
Definition rhook : nat -> list nat := fun _ => [2%nat].

Lemma rnet_proper : proper rnet.
Proof. intros j n E. destruct j as [|[|[|j]]]; cbn in E; try (destruct j; discriminate); injection E as <-; (split; [exact I|repeat constructor]). Qed.
Lemma rstate_live : live_r rnet (network rnet) renv rstate.
Proof.
  destruct (read_dom renv rnet 4 (fun _ => upd_init) 2) as [[s d]|] eqn:E; [|vm_compute in E; discriminate].
  replace rstate with s by (unfold rstate; now rewrite E).
  eapply lr_read; [apply lr_start|exact E]. intros j _. apply points_dom_ok, ex_u_honest.
Qed.

Fixpoint adjacent (f : item xq -> item xq -> bool) (l : list (item xq)) : bool :=
  match l with a :: ((b :: _) as l') => f a b || adjacent f l' | _ => false end.
Lemma adjacent_sound f l : adjacent f l = true -> exists l1 a b l2, l = l1 ++ a :: b :: l2 /\ f a b = true.
Proof.
  induction l as [|a l IH]; [discriminate|]. destruct l as [|b l]; [discriminate|]. cbn [adjacent]. intros H.
  apply orb_true_iff in H. destruct H as [H|H]; [exists [], a, b, l; auto|].
  destruct (IH H) as [l1 [a' [b' [l2 [E K]]]]]. exists (a :: l1), a', b', l2. split; auto. simpl. now rewrite E.
Qed.
Definition stale_after (j : nat) (x : xq) (a b : item xq) : bool :=
  match a, b with
  | ICall en, IRead k d => (l_node en =? j)%nat && (k =? j)%nat && match l_not en with Some D => i_contains D x && negb (n_isnan (i_start D)) && negb (n_isnan (i_end D)) | None => false end && negb (i_contains d x)
  | _, _ => false
  end.

Lemma stale_read : exists (ns : list (node xq)) (env : nat -> ncurve) (s : nstate xq) i (p p' : npts) o D hook s' lb le,
  proper ns /\ live_r ns (network ns) env s /\ nth_error ns i = Some NSource /\ env i = p_crv p /\ honest_history p /\
  run_op p o = (p', [EvBegin D; EvEnd D], Ok tt) /\
  net_update_r ns env hook (network ns) (length ns) s i (p_crv p') D = Ok (s', lb, le) /\
  exists l1 en j x l2 E q, le = l1 ++ ICall en :: IRead j x :: l2 /\ l_node en = j /\ l_not en = Some E /\ imem E (Fin q) /\
    i_contains x (Fin q) = false /\
    i_contains (c_dom (curve_of (set_env env i (p_crv p')) ns j)) (Fin q) = true /\
    c_y (curve_of (set_env env i (p_crv p')) ns j) (Fin q) = Ok (nv 0).
Proof.
  destruct (net_update_r rnet renv rhook (network rnet) 3 rstate 0 (p_crv ex_u') rd) as [[[s' lb] le]|] eqn:E.
  2:{ vm_compute in E. discriminate. }
  exists rnet, renv, rstate, 0%nat, ex_u, ex_u', lop, rd, rhook, s', lb, le.
  split; [exact rnet_proper|]. split; [exact rstate_live|]. split; [reflexivity|]. split; [reflexivity|]. split; [exact ex_u_honest|].
  split; [exact ex_u'_op|]. split; [exact E|].
  assert (A : adjacent (stale_after 2 (fz 4)) le = true).
  { assert (X : match net_update_r rnet renv rhook (network rnet) 3 rstate 0 (p_crv ex_u') rd with Ok (_, le) => adjacent (stale_after 2 (fz 4)) le | Err _ => false end = true)
      by (vm_compute; reflexivity). rewrite E in X. exact X. }
  destruct (adjacent_sound _ _ A) as [l1 [a [b [l2 [El K]]]]].
  destruct a as [en|]; [|discriminate]. destruct b as [|j x]; [discriminate|]. cbn [stale_after] in K.
  apply andb_true_iff in K. destruct K as [K K3]. apply andb_true_iff in K. destruct K as [K K2]. apply andb_true_iff in K. destruct K as [K0 K1].
  apply Nat.eqb_eq in K0, K1. subst j. destruct (l_not en) as [D|] eqn:Hn; [|discriminate].
  apply andb_true_iff in K2. destruct K2 as [K2 O2]. apply andb_true_iff in K2. destruct K2 as [K2 O1].
  exists l1, en, 2%nat, x, l2, D, (QcofZ 4). split; [exact El|]. split; [exact K0|]. split; [exact Hn|]. split.
  { apply contains_iff in K2; [exact K2| |discriminate]. split; intros X; rewrite X in *; discriminate. }
  split; [now apply negb_true_iff in K3|]. split; [vm_compute; reflexivity|val].
Qed.

(** what the callbacks read: whether the sum's domain contains 4 *)
Fixpoint seen (x : xq) (l : list (item xq)) : list bool :=
  match l with [] => [] | IRead _ d :: l' => i_contains d x :: seen x l' | ICall _ :: l' => seen x l' end.
Lemma rnet_seen : exists s' lb le, net_update_r rnet renv rhook (network rnet) 3 rstate 0 (p_crv ex_u') rd = Ok (s', lb, le) /\
  seen (fz 4) lb = [false; false; false; false; false; false] /\ seen (fz 4) le = [false; false; false; false; true; true; true].
Proof.
  destruct (net_update_r rnet renv rhook (network rnet) 3 rstate 0 (p_crv ex_u') rd) as [[[s' lb] le]|] eqn:E.
  2:{ vm_compute in E. discriminate. }
  exists s', lb, le. split; [reflexivity|].
  assert (X : match net_update_r rnet renv rhook (network rnet) 3 rstate 0 (p_crv ex_u') rd with Ok (_, lb, le) => (seen (fz 4) lb, seen (fz 4) le) | Err _ => ([], []) end =
     ([false; false; false; false; false; false], [false; false; false; false; true; true; true])) by (vm_compute; reflexivity).
  rewrite E in X. injection X as A B. auto.
Qed.
