(** C56: finalising a derived curve drops its registrations. *)
From Coq Require Import List ZArith QArith Qcanon Bool.
From Verif Require Import Base Num NumFacts Interval Curve Observer ObserverSpec Lifetime LifetimeFacts LifetimeEx.
Import ListNotations.

(** In every statement [l0] is the history of all registries before the object
    was made and [l] the history between its construction and its end. *)

(** Finalising any derived curve only ever removes registrations, and none of
    another living observer. *)
Theorem C56_removes_only : forall (l0 l : list (nat * rop xq)) o alive,
  let h := h_ops heap0 l0 in let h1 := fst (subscribe h o) in let ts := snd (subscribe h o) in let h2 := h_ops h1 l in
  forall c t, subscribed (finalise alive h2 o ts) c t -> subscribed h2 c t.
Proof. exact only_removes. Qed.
Print Assumptions C56_removes_only.
Theorem C56_others : forall (l0 l : list (nat * rop xq)) o alive,
  let h := h_ops heap0 l0 in let h1 := fst (subscribe h o) in let ts := snd (subscribe h o) in let h2 := h_ops h1 l in
  forall c t, ~ In (c, t) (combine (sources o) ts) ->
  (forall ob, subscriber h2 c t = Some ob -> alive ob = true /\ self o <> Some ob) ->
  subscribed h2 c t -> subscribed (finalise alive h2 o ts) c t.
Proof. exact leaves_others. Qed.
Print Assumptions C56_others.

(** Map, Offset and every scan remove their registration. *)
Theorem C56_one : forall (l0 l : list (nat * rop xq)) alive c,
  let h := h_ops heap0 l0 in let h1 := fst (subscribe h (DOne c)) in let ts := snd (subscribe h (DOne c)) in
  forall t, In t ts -> subscribed h1 c t /\ ~ subscribed (finalise alive (h_ops h1 l) (DOne c) ts) c t.
Proof. exact one_gone. Qed.
Print Assumptions C56_one.
Example C56_one_ex : let h1 := fst (subscribe lf_h (DOne 0)) in
  snd (subscribe lf_h (DOne 0)) = [3%Z] /\ r_tokens (h_regs h1 0%nat) = [3; 1]%Z /\ r_tokens (h_regs h1 1%nat) = [2]%Z /\
  r_tokens (h_regs (finalise lf_all h1 (DOne 0) [3%Z]) 0%nat) = [1]%Z /\
  r_tokens (h_regs (finalise lf_all h1 (DOne 0) [3%Z]) 1%nat) = [2]%Z.
Proof. repeat split; vm_compute; reflexivity. Qed.

(** An aggregate or a piecewise curve over the operands [fs], registered in the
    order [us] in which Python's set lists them, removes exactly the
    registrations whose operand stands at the same place in both lists. *)
Theorem C56_many : forall (l0 l : list (nat * rop xq)) alive fs us,
  let h := h_ops heap0 l0 in let h1 := fst (subscribe h (DMany fs us)) in let ts := snd (subscribe h (DMany fs us)) in
  length ts = length us /\
  forall i f t, nth_error us i = Some f -> nth_error ts i = Some t ->
  subscribed h1 f t /\
  (subscribed (finalise alive (h_ops h1 l) (DMany fs us) ts) f t <->
   subscribed (h_ops h1 l) f t /\ nth_error fs i <> Some f).
Proof. exact many_iff. Qed.
Print Assumptions C56_many.
Theorem C56_many_in_order : forall (l0 l : list (nat * rop xq)) alive fs,
  let h := h_ops heap0 l0 in let h1 := fst (subscribe h (DMany fs fs)) in let ts := snd (subscribe h (DMany fs fs)) in
  forall i f t, nth_error fs i = Some f -> nth_error ts i = Some t ->
  subscribed h1 f t /\ ~ subscribed (finalise alive (h_ops h1 l) (DMany fs fs) ts) f t.
Proof. exact many_same. Qed.
Print Assumptions C56_many_in_order.
Example C56_many_ex : let o := DMany [0; 1; 0; 2]%nat [0; 2; 1]%nat in let h1 := fst (subscribe lf_h o) in
  let h3 := finalise lf_all h1 o (snd (subscribe lf_h o)) in
  snd (subscribe lf_h o) = [3; 4; 5]%Z /\ r_tokens (h_regs h3 0%nat) = [1]%Z /\ r_tokens (h_regs h3 1%nat) = [5; 2]%Z /\
  r_tokens (h_regs h3 2%nat) = [4]%Z.
Proof. repeat split; vm_compute; reflexivity. Qed.

(** So two operands listed in the other order are never left, nor is an operand
    behind a repeated one. *)
Theorem C56_swapped_refuted : forall (l0 : list (nat * rop xq)) alive f g, f <> g ->
  let h := h_ops heap0 l0 in let o := DMany [f; g] [g; f] in
  let h1 := fst (subscribe h o) in let ts := snd (subscribe h o) in
  exists t u, ts = [t; u] /\ subscribed (finalise alive h1 o ts) g t /\ subscribed (finalise alive h1 o ts) f u.
Proof. exact swapped_kept. Qed.
Print Assumptions C56_swapped_refuted.
Theorem C56_repeat_refuted : forall (l0 : list (nat * rop xq)) alive f g, f <> g ->
  let h := h_ops heap0 l0 in let o := DMany [f; f; g] [f; g] in
  let h1 := fst (subscribe h o) in let ts := snd (subscribe h o) in
  exists t u, ts = [t; u] /\ ~ subscribed (finalise alive h1 o ts) f t /\ subscribed (finalise alive h1 o ts) g u.
Proof. exact repeat_kept. Qed.
Print Assumptions C56_repeat_refuted.

(** Extremas leaves its reference but stays registered with its source; an
    extension stays registered with its curve. *)
Theorem C56_extremas_refuted : forall (l0 l : list (nat * rop xq)) alive c ref,
  let h := h_ops heap0 l0 in
  let h1 := fst (subscribe h (DExtremas c ref)) in let ts := snd (subscribe h (DExtremas c ref)) in
  exists t u, ts = [t; u] /\ subscribed h1 c t /\ subscribed h1 ref u /\
    ~ subscribed (finalise alive (h_ops h1 l) (DExtremas c ref) ts) ref u /\
    (subscribed (h_ops h1 l) c t -> subscribed (finalise alive (h_ops h1 l) (DExtremas c ref) ts) c t).
Proof. exact extremas_half. Qed.
Print Assumptions C56_extremas_refuted.
Theorem C56_extension_refuted : forall (l0 l : list (nat * rop xq)) alive me c fn,
  let h := h_ops heap0 l0 in
  let h1 := fst (subscribe h (DExtension me c fn)) in let ts := snd (subscribe h (DExtension me c fn)) in
  exists t us, ts = t :: us /\ subscribed h1 c t /\
    (subscribed (h_ops h1 l) c t -> subscribed (finalise alive (h_ops h1 l) (DExtension me c fn) ts) c t).
Proof. exact extension_kept. Qed.
Print Assumptions C56_extension_refuted.
Example C56_extension_ex : let o := DExtension 9 0 [5%nat] in let h1 := fst (subscribe lf_h o) in
  let h3 := finalise lf_all h1 o (snd (subscribe lf_h o)) in
  r_tokens (h_regs h1 0%nat) = [3; 1]%Z /\ r_tokens (h_regs h3 0%nat) = [3; 1]%Z /\ r_tokens (h_regs h3 5%nat) = [4]%Z /\
  r_tokens (h_regs (finalise (fun _ => false) h1 o (snd (subscribe lf_h o))) 0%nat) = [3]%Z.
Proof. repeat split; vm_compute; reflexivity. Qed.
