(** Concrete observer sets used by the examples in Properties_Observer.v. *)
From Coq Require Import List ZArith QArith Qcanon Bool.
From Verif Require Import Base Num NumFacts Interval IntervalFacts Curve Observer ObserverSpec PointsOps UpdFacts PointsDec ObserverTop.
Import ListNotations.

Definition cb0 : cb xq := Cb 0 [].
Definition cb1 : cb xq := Cb 1 [].
Definition ops4 : list (rop xq) :=
  [RAdd (Some 7%nat) None (Some cb1) (Some cb0) true false;
   RAdd None (Some iv04) (Some cb0) (Some cb0) false true;
   RAdd None (Some (i_closed (fz 5) (fz 6))) (Some cb1) (Some cb1) false false;
   RAdd (Some 7%nat) None (Some cb1) None false true].

Lemma nested_in_order : exists u1 u2 u3 u4,
  begin_update upd_init iv12 = (u1, Some iv12) /\ begin_update u1 iv04 = (u2, Some iv04) /\
  end_update u2 iv12 = (u3, None) /\ end_update u3 iv04 = (u4, Some iv04) /\
  phase u3 [iv04; iv12] [iv12] /\ is_updating u3 = true /\ is_updating u4 = false.
Proof.
  assert (A1 : begin_update upd_init iv12 = (mkU iv12 i_empty None, Some iv12)) by (vm_compute; reflexivity).
  assert (A2 : begin_update (mkU iv12 i_empty None) iv04 = (mkU iv04 i_empty None, Some iv04)) by (vm_compute; reflexivity).
  assert (A3 : end_update (mkU iv04 i_empty None) iv12 = (mkU iv04 iv12 None, None)) by (vm_compute; reflexivity).
  assert (A4 : end_update (mkU iv04 iv12 None) iv04 = (upd_init, Some iv04)) by (vm_compute; reflexivity).
  exists (mkU iv12 i_empty None), (mkU iv04 i_empty None), (mkU iv04 iv12 None), upd_init.
  repeat (split; [assumption|]). split; [|split; vm_compute; reflexivity].
  assert (O1 : iok iv12) by (split; discriminate). assert (O2 : iok iv04) by (split; discriminate).
  eapply ph_wait; [|exact O1|exact A3]. eapply ph_begin; [|exact O2|exact A2]. eapply ph_begin; [|exact O1|exact A1]. constructor.
Qed.

Definition ops_back : list (rop xq) :=
  [RAdd None None None (Some cb0) false false;
   RAdd None None None (Some (Cb 0 [ARemoveTok 1; ARemoveTok 2])) false false;
   RAdd None None None (Some cb0) false false].
Definition ops_fwd : list (rop xq) :=
  [RAdd None None (Some (Cb 0 [ARemoveTok 2])) None false false;
   RAdd None None (Some cb0) None false false;
   RAdd None None (Some cb0) None false false].

Lemma split3 {A} (a b c : A) l1 e l2 : [a; b; c] = l1 ++ e :: l2 ->
  (l1 = [] /\ e = a /\ l2 = [b; c]) \/ (l1 = [a] /\ e = b /\ l2 = [c]) \/ (l1 = [a; b] /\ e = c /\ l2 = []).
Proof.
  destruct l1 as [|x [|y [|z l1]]]; simpl; intros E; injection E; intros; subst; auto.
  destruct l1; discriminate.
Qed.

Lemma ops_back_ok l1 e l2 : order (live 0 ops_back) = l1 ++ e :: l2 ->
     exists ts, removes (e_end e) ts /\ forall e', In e' l2 -> ~ In (e_tok e') ts.
Proof.
  intros E. destruct (split3 _ _ _ _ _ _ E) as [[-> [-> ->]]|[[-> [-> ->]]|[-> [-> ->]]]].
  - exists []. split; [reflexivity|auto].
  - exists [1; 2]%Z. split; [reflexivity|]. intros e' [<-|[]]; cbn; intuition discriminate.
  - exists []. split; [reflexivity|auto].
Qed.
Lemma ops_fwd_ok l1 e l2 : order (live 0 ops_fwd) = l1 ++ e :: l2 ->
     exists ts, removes (e_begin e) ts /\ ~ In (e_tok e) ts /\ forall e', In e' l1 -> ~ In (e_tok e') ts.
Proof.
  intros E. destruct (split3 _ _ _ _ _ _ E) as [[-> [-> ->]]|[[-> [-> ->]]|[-> [-> ->]]]].
  - exists [2]%Z. split; [reflexivity|]. split; [cbn; intuition discriminate|contradiction].
  - exists []. split; [reflexivity|auto].
  - exists []. split; [reflexivity|auto].
Qed.
