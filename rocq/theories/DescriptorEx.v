(** A toy world of curves that record how they were made, and descriptors in it. *)
From Coq Require Import List String Ascii Bool Arith ZArith Lia.
From Verif Require Import Base Util UtilFacts Descriptor DescriptorFacts DescriptorTop.
Import ListNotations.
Open Scope list_scope.
Open Scope string_scope.

(** What made it, the curves and the numbers it was given. *)
Inductive cx := Cx (how : string) (of : list cx) (nums : list Z).
Notation tv := (pv Z cx unit).
Fixpoint curves_in (v : tv) : list cx :=
  match v with PCurve c => [c] | PList l => flat_map curves_in l | _ => [] end.
Fixpoint nums_in (v : tv) : list Z :=
  match v with PNum z => [z] | PList l => flat_map nums_in l | PDict d => flat_map (fun kv => nums_in (snd kv)) d | _ => [] end.
Definition made (how : string) (args : list tv) (kw : dict tv) : res cx :=
  Ok (Cx how (curves_in (PList args)) (nums_in (PList args) ++ nums_in (PDict kw))).
(** The numbers are integers, with 2 in the place of e; a date is its length. *)
Definition toy : world Z cx unit := {|
  w_e := 2%Z;
  w_int := fun s => if String.eqb s "2" then Ok 2%Z else if String.eqb s "3" then Ok 3%Z else if String.eqb s "10" then Ok 10%Z else Err EValue;
  w_ln := fun z => if (0 <? z)%Z then Ok (Z.log2 z) else Err EValue;
  w_log2 := fun z => if (0 <? z)%Z then Ok (Z.log2 z) else Err EValue;
  w_log10 := fun z => if (z =? 10)%Z then Ok 1%Z else if (z =? 100)%Z then Ok 2%Z else Err EValue;
  w_date := fun v => match v with PStr s => Ok (Z.of_nat (String.length s)) | PNum z => Ok z | _ => Err EType end;
  w_pow := fun b z => Ok (b ^ z)%Z;
  w_rpow := fun b c => Ok (Cx "pow" [c] [b]);
  w_obj := Cx "curve" [] [];
  w_type_method := fun _ n => String.eqb n "add_many" || String.eqb n "first";
  w_method := fun _ n => String.eqb n "sma" || String.eqb n "offset" || String.eqb n "add";
  w_call_type := fun c n => made n;
  w_call := fun c n args kw => made n (PCurve c :: args) kw;
  w_log := fun c kw => made "log" [PCurve c] kw;
  w_constant := made "constant";
  w_line := made "line";
  w_points := fun l => made "points" l [];
  w_parse := fun _ => Ok None
|}.

(** { "$line": {"points": [[0, 1], [2, 3]]}, "$sma": [4], "$add": [[5]] } *)
Definition chained : tv := PDict (calls
  [("line", PDict [("points", PList [PList [PNum 0%Z; PNum 1%Z]; PList [PNum 2%Z; PNum 3%Z]])]);
   ("sma", PList [PNum 4%Z]); ("add", PList [PList [PNum 5%Z]])]).
Definition made_chain : cx := Cx "add_many" [Cx "sma" [Cx "line" [] [0; 1; 2; 3]%Z] [4%Z]] [5%Z].
Lemma chained_is : descriptor toy chained = Ok (PCurve made_chain).
Proof. vm_compute. reflexivity. Qed.
(** { "@log": {"$line": {"points": [[8, 16]]}, "$sma": 4}, "$offset": {"x": 4} } *)
Definition in_log : tv := PDict
  [("@log", PDict [("$line", PDict [("points", PList [PList [PNum 8%Z; PNum 16%Z]])]); ("$sma", PNum 4%Z)]);
   ("$offset", PDict [("x", PNum 4%Z)])].
Lemma in_log_is : descriptor toy in_log = Ok (PCurve (Cx "offset" [Cx "pow" [Cx "sma" [Cx "line" [] [3; 4]%Z] [2%Z]] [2%Z]] [4%Z])).
Proof. vm_compute. reflexivity. Qed.
Definition a_list : tv := PList [PNum 8%Z; PStr "x"; PDict [("k", PNum 8%Z); ("l", PList [PNum 16%Z])]].
Lemma a_list_data : data a_list.
Proof.
  apply data_list. constructor; [apply data_leaf; exact Logic.I|]. constructor; [apply data_leaf; exact Logic.I|].
  constructor; [|constructor]. apply data_dict; [repeat constructor; cbn; intuition discriminate|].
  repeat (constructor; [split; [reflexivity|split; [reflexivity|]]|]).
  - apply data_leaf. exact Logic.I.
  - apply data_list. repeat constructor.
  - constructor.
Qed.
Lemma a_list_log : parse_descriptor toy 4 true None a_list ["log"] =
  (["log"], Ok (PList [PNum 3%Z; PStr "x"; PDict [("k", PNum 8%Z); ("l", PList [PNum 4%Z])]])).
Proof. reflexivity. Qed.
Lemma sma_ordinary : ordinary "sma".
Proof. repeat split; discriminate. Qed.
Lemma add_ordinary : ordinary "add".
Proof. repeat split; discriminate. Qed.
(** { "@log": {"$line": {"@args": [256]}} }: the literal is 8 after one logarithm and 3 after two. *)
Definition args_in_log : tv := PDict [("@log", PDict [("$line", PDict [("@args", PList [PNum 256%Z])])])].
Lemma args_in_log_is : descriptor toy args_in_log = Ok (PCurve (Cx "pow" [Cx "line" [] [3%Z]] [2%Z])).
Proof. vm_compute. reflexivity. Qed.
(** { "@log": {"$line": {"value": 256}} }: and 256 as the value of a key. *)
Definition key_in_log : tv := PDict [("@log", PDict [("$line", PDict [("value", PNum 256%Z)])])].
Lemma key_in_log_is : descriptor toy key_in_log = Ok (PCurve (Cx "pow" [Cx "line" [] [256%Z]] [2%Z])).
Proof. vm_compute. reflexivity. Qed.

(** Nested lists for flatten. *)
Definition nest : item nat :=
  IIter [IIter [IAtom 1; IStr "ab"]; INone; IIter []; IIter [IIter [IMap [("k", 2)]]; IAtom 3]].
Lemma nest_flat : flatten nest = [IAtom 1; IStr "ab"; INone; IMap [("k", 2)]; IAtom 3].
Proof. reflexivity. Qed.
Definition two_maps : list (item nat) := [IMap [("a", 1); ("b", 2)]; INone; IIter [IMap [("b", 3); ("d", 4)]]].
Lemma two_maps_good : Forall good_other (flatten (IIter two_maps)).
Proof.
  change (Forall good_other [IMap [("a", 1); ("b", 2)]; INone; IMap [("b", 3); ("d", 4)]]).
  constructor; [|constructor; [left; reflexivity|constructor; [|constructor]]];
    (right; eexists; split; [reflexivity|]; repeat constructor; cbn; intuition discriminate).
Qed.
