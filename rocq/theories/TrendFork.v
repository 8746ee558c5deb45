(** When a new trend line is begun (trend.py:210-219). *)
From Coq Require Import List ZArith Bool Lia.
From Verif Require Import Base Num Interval Points Trend.
Import ListNotations.

Section Fork.
Context {T : Type} {N : Num T}.
Variables (eps gold gold2 : T) (polyfit : list (T * T) -> T * T) (g : cfg T).
Lemma last_app {A} (l : list A) z : last_opt (l ++ [z]) = Some z.
Proof. unfold last_opt. rewrite rev_app_distr. reflexivity. Qed.
Lemma fork_waits lines z p under : t_line z = None -> try_fork eps gold gold2 polyfit g (lines ++ [z]) p under = Ok (lines ++ [z]).
Proof. intros E. unfold try_fork. rewrite last_app. unfold is_ready. rewrite E. reflexivity. Qed.
Lemma fork_near lines z a l p under : t_pts z = a :: l -> n_ltb (n_sub (fst p) (fst a)) (g_width g) = true ->
  try_fork eps gold gold2 polyfit g (lines ++ [z]) p under = Ok (lines ++ [z]).
Proof. intros E W. unfold try_fork. rewrite last_app, E, W. destruct (negb (is_ready z)); reflexivity. Qed.
Lemma fork_far lines z a l p under s : t_line z = Some s -> t_pts z = a :: l -> n_ltb (n_sub (fst p) (fst a)) (g_width g) = false ->
  forall t b, did_append eps gold gold2 polyfit g tl0 p under = Ok (t, b) -> try_fork eps gold gold2 polyfit g (lines ++ [z]) p under = Ok (lines ++ [z] ++ [t]).
Proof. intros R E W t b D. unfold try_fork. rewrite last_app. unfold is_ready. rewrite R, E, W. cbn [negb rbind]. rewrite D. cbn [rbind]. rewrite <- app_assoc. reflexivity. Qed.
Lemma fork_first p under t b : did_append eps gold gold2 polyfit g tl0 p under = Ok (t, b) -> try_fork eps gold gold2 polyfit g [] p under = Ok [t].
Proof. intros D. unfold try_fork. cbn [last_opt rev rbind]. rewrite D. reflexivity. Qed.
End Fork.

(** The band of a trend line (trend.py:384-387, 868-872). *)
From Coq Require Import QArith Qcanon.
From Verif Require Import NumFacts.
Definition at_line (x1 y1 x2 y2 x : Qc) : Qc := (y1 + (y2 - y1) / (x2 - x1) * (x - x1))%Qc.
Lemma seg_value (x1 y1 x2 y2 x : Qc) : x1 <> x2 -> seg_y ((Fin x1, Fin y1), (Fin x2, Fin y2)) (Fin x) = Ok (Some (Fin (at_line x1 y1 x2 y2 x))).
Proof.
  intros D. unfold seg_y. assert (E : @n_eqb xq XQ (Fin x2) (Fin x1) = false) by (apply Qceqb_false; congruence). rewrite E.
  assert (Z0 : Qceqb (x2 - x1)%Qc 0 = false).
  { apply Qceqb_false. intros Q. apply D. replace x2 with ((x2 - x1) + x1)%Qc by ring. rewrite Q. ring. }
  assert (DV : @n_div xq XQ (n_sub (Fin y2) (Fin y1)) (n_sub (Fin x2) (Fin x1)) = Ok (Fin ((y2 - y1) / (x2 - x1))%Qc)).
  { change (xq_div (Fin (y2 - y1)%Qc) (Fin (x2 - x1)%Qc) = Ok (Fin ((y2 - y1) / (x2 - x1))%Qc)). unfold xq_div. rewrite Z0. reflexivity. }
  rewrite DV. reflexivity.
Qed.
Lemma on_band (t : tl xq) s (a1 b1 a2 b2 c1 d1 c2 d2 x y : Qc) : t_line t = Some s -> t_lower t = Some ((Fin a1, Fin b1), (Fin a2, Fin b2)) -> t_upper t = Some ((Fin c1, Fin d1), (Fin c2, Fin d2)) ->
  a1 <> a2 -> c1 <> c2 ->
  exists r, on_trend t (Fin x, Fin y) = Ok r /\
    (r = true <-> i_contains (t_int t) (Fin x) = true /\ (at_line a1 b1 a2 b2 x <= y)%Qc /\ (y <= at_line c1 d1 c2 d2 x)%Qc).
Proof.
  intros L A B N1 N2. unfold on_trend. rewrite L, A, B. cbn [fst snd]. destruct (i_contains (t_int t) (Fin x)); cbn [negb].
  2:{ exists false. split; [reflexivity|]. split; [discriminate|intros (E & _); discriminate]. }
  cbn [need rbind]. rewrite !seg_value by assumption. cbn [need rbind].
  unfold n_geb. cbn [n_leb XQ xq_leb]. destruct (Qcleb (at_line a1 b1 a2 b2 x) y) eqn:E1.
  - eexists. split; [reflexivity|]. rewrite Qcleb_true. apply Qcleb_true in E1. tauto.
  - exists false. split; [reflexivity|]. split; [discriminate|]. intros (_ & E & _). apply Qcleb_true in E. congruence.
Qed.
Definition band : tl xq := mkTL [] [] [] (Some ((Fin (QcofZ 0), Fin (QcofZ 0)), (Fin (QcofZ 4), Fin (QcofZ 4))))
  (Some ((Fin (QcofZ 0), Fin (QcofZ 1)), (Fin (QcofZ 4), Fin (QcofZ 5)))) (Some ((Fin (QcofZ 0), Fin (QcofZ (-1))), (Fin (QcofZ 4), Fin (QcofZ 3))))
  (i_closed (Fin (QcofZ 0)) (Fin (QcofZ 9))) [] [] pred0.
