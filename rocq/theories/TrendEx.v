(** Concrete trend lines, and runs that break what one would expect. *)
From Coq Require Import List ZArith QArith Qcanon Bool Lia Sorting.Sorted.
From Verif Require Import Base Num NumFacts Interval Points PointsDec Trend TrendGeo TrendPred TrendPredFacts TrendLineInv TrendCol TrendTop.
Import ListNotations.

(** Rational stand-ins for EPSILON_ZERO, GOLD and GOLD_2. *)
Definition eps0 : Qc := (1 / QcofZ 100000000000000)%Qc.
Definition ceps : xq := Fin eps0.
Definition goldq : Qc := (QcofZ 13 / QcofZ 8)%Qc.
Definition cgold : xq := Fin goldq.
Definition cgold2 : xq := fr 21 8.
(** polyfit on collinear points: the line through the first and last. *)
Definition chord (l : list (xq * xq)) : xq * xq :=
  match l, last_opt l with
  | a :: _, Some z =>
      match n_div (snd z - snd a)%num (fst z - fst a)%num with
      | Ok m => ((snd a - m * fst a)%num, m)
      | Err _ => (XNaN, XNaN)
      end
  | _, _ => (XNaN, XNaN)
  end.
Definition zq (l : list (Z * Z)) : list qpt := map (fun p => (QcofZ (fst p), QcofZ (snd p))) l.
Definition zp (l : list (Z * Z)) : list (xq * xq) := map (fun p => (fz (fst p), fz (snd p))) l.

Fixpoint peqb (l m : list (xq * xq)) : bool :=
  match l, m with
  | [], [] => true
  | (x, v) :: l, (y, w) :: m => xq_eqb x y && xq_eqb v w && peqb l m
  | _, _ => false
  end.
Lemma peqb_eq l : forall m, peqb l m = true -> l = m.
Proof.
  induction l as [|[x v] l IH]; intros [|[y w] m]; try discriminate; auto. cbn. rewrite !andb_true_iff. intros [[A B] C].
  now rewrite (xq_eqb_eq _ _ A), (xq_eqb_eq _ _ B), (IH _ C).
Qed.

(** ** Lines fed a list of points, each seen by the line as it is scanned *)
Fixpoint feed (seen l : list (xq * xq)) : list (lev (T := xq)) :=
  match l with [] => [] | p :: l => LAppend p (seen ++ [p]) :: feed (seen ++ [p]) l end.
Definition lcfg (up : bool) (mp : Z) : cfg xq := mkG (fz 1) up mp (Fin 0) (fz 10) None (Some (fr 1 10)).
Definition run (g : cfg xq) (l : list (Z * Z)) : res (tl xq) := lrun ceps cgold cgold2 chord g tl0 (feed [] (zp l)).
Definition has (r : res (tl xq)) (f : tl xq -> bool) : bool := match r with Ok t => f t | Err _ => false end.
Lemma has_ok r f : has r f = true -> exists t, r = Ok t /\ f t = true.
Proof. destruct r; [ eauto | discriminate ]. Qed.
Definition phaseb (t : tl xq) (n : nat) (ok failed : bool) : bool :=
  Nat.eqb (q_phase (t_pred t)) n && Bool.eqb (q_ok (t_pred t)) ok && Bool.eqb (q_failed (t_pred t)) failed.

(** Touches at 0 2 4 6, a crossing at 8, an extreme at 10, a retest at 11, a
    confirmation at 12 and the target at 14. *)
Definition walk : list (Z * Z) :=
  [(0,10);(2,10);(4,10);(5,8);(6,10);(7,8);(9,12);(10,13);(11,10);(12,14);(13,17);(14,20)]%Z.
Lemma walk_ok : has (run (lcfg true 2) walk) (fun t => phaseb t 4 true false) = true.
Proof. vm_compute. reflexivity. Qed.
(** A tangent after the confirmation takes the prediction back to phase 2. *)
Definition upto12 : list (Z * Z) := firstn 10 walk.
Lemma back_ex : has (run (lcfg true 2) upto12) (fun t => phaseb t 3 false false) = true /\
  has (lrun ceps cgold cgold2 chord (lcfg true 2) tl0 (feed [] (zp upto12 ++ [(fr 25 2, fz 10)]))) (fun t => phaseb t 2 false false) = true.
Proof. split; vm_compute; reflexivity. Qed.
(** The touch at 6 is the last point of interest before (7, 8), and is counted
    again when (7, 8) arrives: three tangents, of which there are two. *)
Lemma recount_ex : has (run (lcfg true 2) (firstn 6 walk)) (fun t => (q_tan (t_pred t) =? 3)%Z && (length (t_tan t) =? 2)%nat) = true.
Proof. vm_compute. reflexivity. Qed.
(** An upper line crossed downwards: the crossing at 8 is the last point of
    interest, and the next point makes the prediction fail. *)
Definition fall : list (Z * Z) := [(0,10);(2,10);(4,10);(5,12);(6,10);(7,12);(9,8);(10,7)]%Z.
Lemma fall_ex : has (run (lcfg true 2) (firstn 7 fall)) (fun t => phaseb t 1 false false && peqb (t_cross t) (zp [(8,10)]%Z)) = true /\
  has (run (lcfg true 2) fall) (fun t => phaseb t 1 false true && peqb (t_cross t) (zp [(8,10)]%Z)) = true.
Proof. split; vm_compute; reflexivity. Qed.

(** ** Collinear points *)
Definition six : list (Z * Z) := [(0,1);(1,3);(2,5);(3,7);(4,9);(5,11)]%Z.
Lemma six_col : Forall (fun p => exists q, p = fp q /\ col (QcofZ 2) (QcofZ 1) q) (given (feed [] (zp six))).
Proof.
  cbn [feed given flat_map app six zp map fst snd].
  repeat constructor;
    match goal with |- exists q, (fz ?x, fz ?y) = _ /\ _ => exists (QcofZ x, QcofZ y); split; [ reflexivity | apply Qceqb_true; vm_compute; reflexivity ] end.
Qed.
Lemma six_ex : has (run (lcfg true 4) six) (fun t => negb (is_valid (lcfg true 4) t) && peqb (t_pts t) (zp [(0,1);(4,9);(3,7);(2,5);(1,3);(5,11)]%Z)) = true
  /\ has (run (lcfg true 3) six) (fun t => is_valid (lcfg true 3) t) = true.
Proof. split; vm_compute; reflexivity. Qed.

(** ** The boundary loses the wrong point *)
Definition gb : cfg xq := mkG (fz 1) true 2 (Fin 0) (fz 10) None (Some (fz 1)).
Definition bent : list (xq * xq) := [(fz 0, fz 0); (fz 18, fz (-1)); (fz 19, fr (-3) 2); (fz 20, fz 0); (fz 30, fr 5 2)].
Lemma bent_ex : exists pts bnd, set_trend ceps gb bent = Ok (pts, bnd) /\
  (* (20, 0) is strictly inside and pruned from the extremas *)
  strictly_convex ceps None (Some (fz 1)) (fz 0, fz 0) (fz 20, fz 0) (fz 30, fr 5 2) = Ok true /\
  on_line ceps None (Some (fz 1)) ((fz 0, fz 0), (fz 30, fr 5 2)) (fz 20, fz 0) = Ok false /\
  (* but it stays in the boundary and (18, -1) goes *)
  bnd = [(fz 0, fz 0); (fz 19, fr (-3) 2); (fz 20, fz 0); (fz 30, fr 5 2)].
Proof.
  assert (H : match set_trend ceps gb bent with Ok (_, b) => peqb b [(fz 0, fz 0); (fz 19, fr (-3) 2); (fz 20, fz 0); (fz 30, fr 5 2)] | Err _ => false end = true)
    by (vm_compute; reflexivity).
  destruct (set_trend ceps gb bent) as [[p b]|]; [ | discriminate ]. exists p, b. apply peqb_eq in H.
  repeat split; try (vm_compute; reflexivity). exact H.
Qed.

(** ** Levels *)
Definition gg : cfg xq := mkG (fz 2) true 3 (Fin 0) (fz 10) None (Some (fr 1 10)).
Definition scans (l : list (Z * Z)) : list (tev (T := xq)) := map (fun p => TScan (fz (fst p)) (Some (fz (snd p)))) l.
Definition trn (g : cfg xq) (es : list (tev (T := xq))) : res (trend xq) := trun ceps cgold cgold2 chord g 50 trend0 es.
Definition zig : list (Z * Z) :=
  [(0,10);(1,12);(2,10);(3,17);(4,10);(5,16);(6,10);(7,15);(8,8);(9,20);(10,6);(11,18);(12,4)]%Z.
Definition from6 : ival xq := mkI (fz 6) PInf false true.
Definition sizes (r : res (trend xq)) : option (nat * nat) :=
  match r with Ok r => Some (length (r_up r), length (r_lo r)) | Err _ => None end.
Lemma levels_ex : sizes (trn gg (scans zig)) = Some (3, 3)%nat /\
  sizes (trn gg (scans zig ++ [TBegin from6])) = Some (3, 2)%nat /\
  trn gg (scans zig ++ TBegin from6 :: scans (skipn 6 zig)) = Err EIndex.
Proof. repeat split; vm_compute; reflexivity. Qed.

(** Scanning the points again after an update of [6, oo) does not give what
    scanning them once gives, even where nothing raises: here the mirrored
    points. *)
Definition mirror (l : list (Z * Z)) : list (Z * Z) := map (fun p => (fst p, (20 - snd p)%Z)) l.
Lemma rescan_ex : exists r1 r2,
  trn gg (scans (mirror zig)) = Ok r1 /\ trn gg (scans (mirror zig) ++ TBegin from6 :: scans (skipn 6 (mirror zig))) = Ok r2 /\
  r_pts r1 = r_pts r2 /\ (length (concat (r_up r1)), length (r_lo r1)) <> (length (concat (r_up r2)), length (r_lo r2)).
Proof.
  assert (H : (match trn gg (scans (mirror zig)), trn gg (scans (mirror zig) ++ TBegin from6 :: scans (skipn 6 (mirror zig))) with
               | Ok a, Ok b => peqb (r_pts a) (r_pts b) && negb (Nat.eqb (length (r_lo a)) (length (r_lo b)))
               | _, _ => false end)%bool = true) by (vm_compute; reflexivity).
  destruct (trn gg (scans (mirror zig))) as [r1|]; [ | discriminate ].
  destruct (trn gg (_ ++ _)) as [r2|]; [ | discriminate ].
  exists r1, r2. apply andb_prop in H. destruct H as [ H1 H2 ]. apply peqb_eq in H1. apply negb_true_iff, Nat.eqb_neq in H2.
  repeat split; auto. intros [= _ E]. contradiction.
Qed.

(** Comparing results by computation. *)
Definition req {A} (eqb : A -> A -> bool) (r s : res A) : bool := match r, s with Ok a, Ok b => eqb a b | _, _ => false end.
Lemma req_eq {A} (eqb : A -> A -> bool) : (forall a b, eqb a b = true -> a = b) -> forall r s, req eqb r s = true -> r = s.
Proof. intros H [a|] [b|]; try discriminate. cbn. intro E. now rewrite (H _ _ E). Qed.
Definition p1eqb (p q : xq * xq) : bool := peqb [p] [q].
Lemma p1eqb_eq p q : p1eqb p q = true -> p = q.
Proof. intro H. apply peqb_eq in H. now injection H. Qed.
Definition oeqb {A} (eqb : A -> A -> bool) (a b : option A) : bool := match a, b with Some a, Some b => eqb a b | None, None => true | _, _ => false end.
Lemma oeqb_eq {A} (eqb : A -> A -> bool) : (forall a b, eqb a b = true -> a = b) -> forall a b, oeqb eqb a b = true -> a = b.
Proof. intros H [a|] [b|]; try discriminate; auto. cbn. intro E. now rewrite (H _ _ E). Qed.
Definition ppeqb (a b : list (xq * xq) * list (xq * xq)) : bool := peqb (fst a) (fst b) && peqb (snd a) (snd b).
Lemma ppeqb_eq a b : ppeqb a b = true -> a = b.
Proof. destruct a, b. unfold ppeqb. cbn. rewrite andb_true_iff. intros [A B]. now rewrite (peqb_eq _ _ A), (peqb_eq _ _ B). Qed.
Definition pppeqb (a b : list (xq * xq) * list (xq * xq) * list (xq * xq)) : bool := ppeqb (fst a) (fst b) && peqb (snd a) (snd b).
Lemma pppeqb_eq a b : pppeqb a b = true -> a = b.
Proof. destruct a, b. unfold pppeqb. cbn. rewrite andb_true_iff. intros [A B]. now rewrite (ppeqb_eq _ _ A), (peqb_eq _ _ B). Qed.
Ltac chk := repeat match goal with |- _ /\ _ => split end;
  first [ vm_compute; reflexivity
        | apply xq_eqb_eq; vm_compute; reflexivity
        | apply (req_eq _ peqb_eq); vm_compute; reflexivity
        | apply (req_eq _ p1eqb_eq); vm_compute; reflexivity
        | apply (req_eq _ (oeqb_eq _ p1eqb_eq)); vm_compute; reflexivity
        | apply (req_eq _ (oeqb_eq _ xq_eqb_eq)); vm_compute; reflexivity
        | apply (req_eq _ ppeqb_eq); vm_compute; reflexivity
        | apply (req_eq _ pppeqb_eq); vm_compute; reflexivity ].
