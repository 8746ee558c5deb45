(** Runs of Lifetime.v. *)
From Coq Require Import List ZArith Bool QArith Qcanon Lia Permutation.
From Verif Require Import Base Num NumFacts Interval Curve Observer ObserverSpec ObserverFacts Lifetime LifetimeFacts.
Import ListNotations.

Definition lf_all (n : nat) : bool := true.
(** another observer of curve 0 and one of curve 1 *)
Definition lf_ops : list (nat * rop xq) :=
  [(0%nat, RAdd (Some 7%nat) None forwards forwards false false); (1%nat, RAdd None None forwards forwards false true)].
Definition lf_h : heap xq := h_ops heap0 lf_ops.

Lemma swapped_kept : forall (l0 : list (nat * rop xq)) alive f g, f <> g ->
  let h := h_ops heap0 l0 in let o := DMany [f; g] [g; f] in
  let h1 := fst (subscribe h o) in let ts := snd (subscribe h o) in
  exists t u, ts = [t; u] /\ subscribed (finalise alive h1 o ts) g t /\ subscribed (finalise alive h1 o ts) f u.
Proof.
  intros l0 alive f g NE h o h1 ts. destruct (many_iff l0 [] alive [f; g] [g; f]) as [L K].
  fold h o in L, K. fold h1 ts in K. fold ts in L. destruct ts as [|t [|u [|]]] eqn:E; try discriminate L. exists t, u. split; [reflexivity|].
  destruct (K 0%nat g t eq_refl eq_refl) as [S1 I1]. destruct (K 1%nat f u eq_refl eq_refl) as [S2 I2].
  split; [apply I1|apply I2]; (split; [assumption|]); cbn; congruence.
Qed.
Lemma repeat_kept : forall (l0 : list (nat * rop xq)) alive f g, f <> g ->
  let h := h_ops heap0 l0 in let o := DMany [f; f; g] [f; g] in
  let h1 := fst (subscribe h o) in let ts := snd (subscribe h o) in
  exists t u, ts = [t; u] /\ ~ subscribed (finalise alive h1 o ts) f t /\ subscribed (finalise alive h1 o ts) g u.
Proof.
  intros l0 alive f g NE h o h1 ts. destruct (many_iff l0 [] alive [f; f; g] [f; g]) as [L K].
  fold h o in L, K. fold h1 ts in K. fold ts in L. destruct ts as [|t [|u [|]]] eqn:E; try discriminate L. exists t, u. split; [reflexivity|].
  destruct (K 0%nat f t eq_refl eq_refl) as [S1 I1]. destruct (K 1%nat g u eq_refl eq_refl) as [S2 I2].
  split; [intros X; apply I1 in X; apply (proj2 X); reflexivity|apply I2]. split; [assumption|]. cbn. congruence.
Qed.
