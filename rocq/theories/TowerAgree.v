(** One accumulating curve over a snapshot: Tower.v says the same as Scan.v. *)
From Coq Require Import List ZArith Bool Lia.
From Verif Require Import Base Num Interval Curve Points Combine Scan Tower.
Import ListNotations.

Section Agree.
Context {T : Type} {N : Num T}.
Notation V := (option T).
Variables (c : crv T V) (own : option T).
Notation src := (still c).
(** the result of Scan.v with the source's state put back *)
Definition with_unit {A} (p : acc T V * res A) : (unit * acc T V) * res A := ((tt, fst p), snd p).

Lemma st_dom_still a : st_dom src (tt, a) = with_unit (let '(a', d) := acc_dom (c_dom c) a in (a', Ok d)).
Proof.
  unfold st_dom, acc_dom. cbn [snd]. destruct (u_dom (a_upd a)) as [d|] eqn:E; [reflexivity|].
  unfold sbind, of_src, of_acc, with_unit. cbn [still sc_dom fst snd]. rewrite E. reflexivity.
Qed.
Lemma st_next_still x ms lim a : st_next src own x ms lim (tt, a) = with_unit (a, acc_next c own a x ms lim).
Proof.
  unfold st_next, st_step, acc_next, sbind, get_acc, of_src, sret, sfail, with_unit. cbn [still sc_next fst snd].
  destruct (p_x_next (a_pts a) x (resolve_min_step own ms) lim) as [[v|]|e]; [cbn [rbind py_or]; destruct (n_eqb v n_zero); reflexivity|reflexivity|reflexivity].
Qed.
Lemma st_prev_still x ms lim a : st_prev src own x ms lim (tt, a) = with_unit (a, acc_prev c own a x ms lim).
Proof.
  unfold st_prev, st_step, acc_prev, sbind, get_acc, of_src, sret, sfail, with_unit. cbn [still sc_prev fst snd].
  destruct (p_x_previous (a_pts a) x (resolve_min_step own ms) lim) as [[v|]|e]; [cbn [rbind py_or]; destruct (n_eqb v n_zero); reflexivity|reflexivity|reflexivity].
Qed.

Section Tf.
Context (tf : pts T V -> T -> V -> V -> sr unit V) (t : pts T V -> T -> V -> V -> res V).
Context (TT : forall p x y v, tf p x y v tt = (tt, t p x y v)).

Lemma st_accumulate_still x y a : st_accumulate tf x y (tt, a) = with_unit (accumulate t a x y).
Proof.
  unfold st_accumulate, accumulate, sbind, get_acc, of_src, of_acc, sfail, with_unit. cbn [fst snd a_pts set_apts].
  match goal with |- context [match ?E0 with Ok _ => _ | Err _ => _ end] => destruct E0 as [last|er]; [|reflexivity] end.
  cbn [fst snd]. rewrite TT. destruct (t _ _ _ _) as [w|e]; [|reflexivity]. cbn [fst snd a_pts set_apts].
  destruct (p_append _ _) as [[p' evs] r]. reflexivity.
Qed.

Lemma st_init_still x a : st_init src own x (tt, a) = with_unit (init_scan c own a (Some x)).
Proof.
  unfold st_init, init_scan, sbind at 1, of_src at 1. cbn [still sc_dom fst snd].
  destruct (i_is_empty (c_dom c) || i_is_negative_infinite (c_dom c))%bool; [reflexivity|].
  unfold sbind. rewrite st_dom_still. destruct (acc_dom (c_dom c) a) as [a' d]. unfold with_unit. cbn [fst snd].
  destruct (i_contains d (i_start (c_dom c))); reflexivity.
Qed.

Lemma st_loop_still x : forall fuel a, st_loop src own fuel tf x (tt, a) = with_unit (scan_loop fuel c own (init_scan c own) t x (Some x) a).
Proof.
  induction fuel as [|f IH]; intros a; [reflexivity|]. cbn [st_loop scan_loop]. unfold sbind at 1, get_acc at 1. cbn [snd].
  destruct (match a_cur a with Some cur => n_ltb cur x | None => true end) eqn:GO; [|reflexivity].
  assert (REST : forall a1 current, match a_cur a1 with Some _ => a_cur a1 = a_cur a | None => a_cur a = None end ->
    sbind (of_src (sc_dom src)) (fun cd => if negb (i_contains cd current) then sret tt
       else if match a_cur a with Some cur => n_leb current cur | None => false end then sfail EExc
       else sbind (of_src (sc_y src current)) (fun y => sbind (st_accumulate tf current y) (fun _ =>
              sbind (of_acc (fun a => (set_cur a (Some current), Ok tt))) (fun _ => st_loop src own f tf x)))) (tt, a1)
    = with_unit (if negb (i_contains (c_dom c) current) then (a1, Ok tt)
            else if (match a_cur a1 with Some cur => n_leb current cur | None => false end) then (a1, Err EExc)
            else
              match c_y c current with
              | Err e => (a1, Err e)
              | Ok y =>
                  let '(a2, r) := accumulate t a1 current y in
                  match r with
                  | Err e => (a2, Err e)
                  | Ok _ => scan_loop f c own (init_scan c own) t x (Some x) (set_cur a2 (Some current))
                  end
              end)).
  { intros a1 current HC. unfold sbind at 1, of_src at 1. cbn [still sc_dom fst snd].
    destruct (negb (i_contains (c_dom c) current)); [reflexivity|].
    assert (EB : match a_cur a with Some cur => n_leb current cur | None => false end = match a_cur a1 with Some cur => n_leb current cur | None => false end).
    { destruct (a_cur a1); [now rewrite <- HC|now rewrite HC]. }
    rewrite EB. destruct (match a_cur a1 with Some cur => n_leb current cur | None => false end); [reflexivity|].
    unfold sbind at 1, of_src at 1. cbn [still sc_y fst snd]. destruct (c_y c current) as [y|e]; [|reflexivity].
    unfold sbind at 1. rewrite st_accumulate_still. unfold with_unit at 1. destruct (accumulate t a1 current y) as [a2 [u|e]]; cbn [fst snd]; [|reflexivity].
    unfold sbind, of_acc. cbn [fst snd]. apply IH. }
  destruct (a_cur a) as [cur|] eqn:EC.
  - unfold sbind at 1. rewrite st_next_still. unfold with_unit at 1. cbn [fst snd].
    destruct (acc_next c own a cur own (Some x)) as [[current|]|e]; [|reflexivity|reflexivity].
    rewrite (REST a current) by now rewrite EC. reflexivity.
  - unfold sbind at 1. unfold sbind at 1. rewrite st_init_still. unfold with_unit at 1.
    assert (EI : a_cur (fst (init_scan c own a (Some x))) = None).
    { unfold init_scan, acc_dom. destruct (_ || _)%bool; [exact EC|]. destruct (u_dom (a_upd a)); destruct (negb _); exact EC. }
    destruct (init_scan c own a (Some x)) as [a1 [o|e]]; cbn [fst snd] in *; [|reflexivity].
    unfold sbind at 1, of_acc at 1, sret at 1. cbn [fst snd].
    destruct o as [current|]; [|reflexivity]. rewrite (REST (set_start a1 (Some current)) current); [reflexivity|]. cbn [set_start a_cur]. now rewrite EI.
Qed.

Lemma st_y_still fuel post x a : st_y src own fuel tf post x (tt, a) = with_unit (acc_y fuel c own t post a x).
Proof.
  unfold st_y, acc_y, sbind at 1, of_src at 1. cbn [still sc_dom fst snd].
  assert (GO : forall a1, sbind (st_scan src own fuel tf x) (fun _ => sbind get_acc (fun a => match p_y (a_pts a) x with Ok y => sret (post y) | Err e => sfail e end)) (tt, a1)
    = with_unit (let '(a, r) := scan fuel c own (init_scan c own) no_offset t x a1 in
        match r with Err e => (a, Err e) | Ok _ => (a, let! y := p_y (a_pts a) x in Ok (post y)) end)).
  { intros a1. unfold sbind at 1, st_scan, scan, no_offset. unfold sbind at 1, get_acc at 1. cbn [snd].
    assert (FIN : forall a2, (let '(s, r) := st_loop src own fuel tf x (tt, a2) in
        match r with Ok _ => sbind get_acc (fun a => match p_y (a_pts a) x with Ok y => sret (post y) | Err e => sfail e end) s | Err er => (s, Err er) end)
      = with_unit (let '(a, r) := scan_loop fuel c own (init_scan c own) t x (Some x) a2 in
        match r with Err e => (a, Err e) | Ok _ => (a, let! y := p_y (a_pts a) x in Ok (post y)) end)).
    { intros a2. rewrite st_loop_still. destruct (scan_loop _ _ _ _ _ _ _ _) as [a3 [u|e]]; [|reflexivity].
      unfold with_unit at 1, sbind, get_acc, sret, sfail. cbn [fst snd]. destruct (p_y (a_pts a3) x); reflexivity. }
    unfold sbind at 1. destruct (a_start a1) as [s|].
    - destruct (n_ltb x s).
      + unfold of_acc. cbn [fst snd]. destruct (reset_scan a1) as [a2 [u|e]]; [|reflexivity]. apply FIN.
      + unfold sret at 1. apply FIN.
    - unfold sret at 1. apply FIN. }
  destruct (negb (i_contains (c_dom c) x)).
  - unfold sbind at 1. unfold sbind at 1. rewrite st_dom_still. destruct (acc_dom (c_dom c) a) as [a1 d]. unfold with_unit at 1. cbn [fst snd]. unfold sret at 1.
    destruct (negb (i_contains d x)); [reflexivity|]. apply GO.
  - unfold sbind at 1, sret at 1. apply GO.
Qed.
End Tf.

(** ** The transforms *)
Definition still_tf (k : layer T) : pts T V -> T -> V -> V -> res V :=
  match k with
  | LInt half ip _ => integral_scan half ip (c_y c)
  | LEma deg => fun _ => ema_scan deg None (fun x => c_prev c x own None)
  | LMap n tfm => fun _ x y _ => map_scan (MapDegree n) (map_from_x c own) (fun _ => Ok []) tfm x y
  end.
Lemma st_walk_still ms n : forall x, st_walk src ms n x tt = (tt, spfx_loop py_none c true ms n x).
Proof.
  induction n as [|n IH]; intros x; [reflexivity|]. cbn [st_walk spfx_loop]. unfold sbind at 1. cbn [still sc_prev].
  destruct (c_prev c x ms None) as [[x1|]|e]; [|reflexivity|reflexivity]. cbn [rbind]. unfold sbind at 1. cbn [still sc_y].
  destruct (c_y c x1) as [[y|]|e]; [|reflexivity|reflexivity]. cbn [rbind py_none]. unfold sbind. rewrite IH.
  destruct (spfx_loop _ _ _ _ _ _); reflexivity.
Qed.
Lemma layer_tf_still k : (forall n tfm, k = LMap n tfm -> (1 <= n)%Z) -> forall p x y v, layer_tf src (c_ms c) own k p x y v tt = (tt, still_tf k p x y v).
Proof.
  intros HK p x y v. destruct k as [half ip const|deg|n tfm]; cbn [layer_tf still_tf].
  - unfold st_integral_tf, integral_scan. destruct y as [yv|]; [|reflexivity].
    destruct (p_x_previous p x (Some MIN_STEP) None) as [[x0|]|e]; [|reflexivity|reflexivity]. unfold sbind. cbn [still sc_y rbind].
    destruct (c_y c x0) as [y0|e]; reflexivity.
  - unfold st_ema_tf, ema_scan. destruct y as [yv|]; [|reflexivity]. destruct v as [e|]; [|reflexivity].
    destruct deg as [q|q]; [|reflexivity]. unfold sbind. cbn [still sc_prev]. destruct (c_prev c x own None); reflexivity.
  - specialize (HK n tfm eq_refl). unfold st_map_tf, map_scan, sbind. destruct (negb (n =? 1)%Z); [|reflexivity].
    rewrite st_walk_still. unfold map_from_x, sample_points_from_x.
    assert (E : (n - 1 <? 0)%Z = false) by (apply Z.ltb_ge; lia). rewrite E. cbn [negb].
    destruct (spfx_loop _ _ _ _ _ _); reflexivity.
Qed.

Theorem over_still fuel k a : (forall n tfm, k = LMap n tfm -> (1 <= n)%Z) ->
  (forall x, sc_y (over fuel src (c_ms c) own k) x (tt, a) = with_unit (acc_y fuel c own (still_tf k) (layer_post k) a x)) /\
  sc_dom (over fuel src (c_ms c) own k) (tt, a) = with_unit (let '(a', d) := acc_dom (c_dom c) a in (a', Ok d)) /\
  (forall x ms lim, sc_next (over fuel src (c_ms c) own k) x ms lim (tt, a) = with_unit (a, acc_next c own a x ms lim)) /\
  (forall x ms lim, sc_prev (over fuel src (c_ms c) own k) x ms lim (tt, a) = with_unit (a, acc_prev c own a x ms lim)).
Proof.
  intros HK. split; [|split; [|split]]; cbn [over sc_y sc_dom sc_next sc_prev].
  - intros x. apply st_y_still. now apply layer_tf_still.
  - apply st_dom_still.
  - intros. apply st_next_still.
  - intros. apply st_prev_still.
Qed.
End Agree.
