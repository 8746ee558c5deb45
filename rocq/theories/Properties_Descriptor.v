(** C45 and C46: descriptors, flatten and extend. *)
From Coq Require Import List String Bool Arith ZArith Sorting.Sorted.
From Verif Require Import Base Util UtilFacts Descriptor DescriptorFacts DescriptorTop DescriptorEx DescriptorArgs.
Import ListNotations.
Open Scope string_scope.
Open Scope list_scope.

(** The list of decorators comes back as it was; after an exception it has grown. *)
Theorem C45_scoped : forall R C X (w : world R C X) fuel fr cur d s, exists ext,
  fst (parse_descriptor w fuel fr cur d s) = s ++ ext /\
  forall v, snd (parse_descriptor w fuel fr cur d s) = Ok v -> ext = [].
Proof. exact (fun R C X w => @parse_scoped R C X w). Qed.
Print Assumptions C45_scoped.
Example C45_scoped_ex :
  parse_descriptor toy 6 false None (PDict [("@log", PDict [("$nothing", PNum 1%Z)])]) ["x"] = (["x"; "log"], Err EValue) /\
  fst (parse_descriptor toy 6 false None in_log ["x"]) = ["x"].
Proof. vm_compute. auto. Qed.

(** Every descriptor is parsed in at most as many nested calls as it is deep. *)
Theorem C45_terminates : forall R C X (w : world R C X) f1 f2 fr cur d s, depth d < f1 -> depth d < f2 ->
  parse_descriptor w f1 fr cur d s = parse_descriptor w f2 fr cur d s.
Proof. exact (fun R C X w => @parse_fuel R C X w). Qed.
Print Assumptions C45_terminates.
Example C45_terminates_ex : depth in_log = 5 /\ descriptor toy in_log = snd (parse_descriptor toy 100 false None in_log []).
Proof. vm_compute. auto. Qed.

(** Data is copied; the literals in its sequences are converted as the
    decorators in force ask. *)
Theorem C45_literals : forall R C X (w : world R C X) fuel d s s' v, data d -> depth d < fuel ->
  (parse_descriptor w fuel true None d s = (s', Ok v) <-> s' = s /\ converted w s d v).
Proof. exact (fun R C X w => @data_converted R C X w). Qed.
Print Assumptions C45_literals.
Example C45_literals_ex : data a_list /\ parse_descriptor toy 4 true None a_list ["log"] =
  (["log"], Ok (PList [PNum 3%Z; PStr "x"; PDict [("k", PNum 8%Z); ("l", PList [PNum 4%Z])]])).
Proof. exact (conj a_list_data a_list_log). Qed.

(** A decorator is in force inside its value, and nowhere else. *)
Theorem C45_decorated : forall R C X (w : world R C X) fuel fr cur o v v' s,
  parse_descriptor w fuel fr cur v (s ++ [o]) = (s ++ [o], Ok v') ->
  starts "log" o = false -> o <> "args" \/ (exists c, v' = PCurve c) ->
  parse_descriptor w (S fuel) fr cur (PDict [("@" ++ o, v)])%string s = (s, Ok v').
Proof. exact (fun R C X w => @decorated R C X w). Qed.
Print Assumptions C45_decorated.
Example C45_decorated_ex : parse_descriptor toy 3 true None (PDict [("@date", PList [PStr "2020"])]) [] = ([], Ok (PList [PNum 4%Z])).
Proof. vm_compute. reflexivity. Qed.
Theorem C45_decorated_log : forall R C X (w : world R C X) fuel fr cur o b v s, starts "log" o = true -> base_of w o = Ok b ->
  (forall r r', parse_descriptor w fuel fr cur v (s ++ [o]) = (s ++ [o], Ok (PNum r)) -> w_pow w b r = Ok r' ->
     parse_descriptor w (S fuel) fr cur (PDict [("@" ++ o, v)])%string s = (s, Ok (PNum r'))) /\
  (forall c c', parse_descriptor w fuel fr cur v (s ++ [o]) = (s ++ [o], Ok (PCurve c)) -> w_rpow w b c = Ok c' ->
     parse_descriptor w (S fuel) fr cur (PDict [("@" ++ o, v)])%string s = (s, Ok (PCurve c'))).
Proof. exact (fun R C X w => @decorated_log R C X w). Qed.
Print Assumptions C45_decorated_log.
Theorem C45_log_round_trip : forall R C X (w : world R C X) fuel r r1 s, ~ In "date" s -> w_ln w r = Ok r1 -> w_pow w (w_e w) r1 = Ok r ->
  parse_descriptor w (S (S fuel)) true None (PDict [("@log", PNum r)]) s = (s, Ok (PNum r)).
Proof. exact (fun R C X w => @log_round_trip R C X w). Qed.
Print Assumptions C45_log_round_trip.
Example C45_decorated_log_ex :
  descriptor toy in_log = Ok (PCurve (Cx "offset" [Cx "pow" [Cx "sma" [Cx "line" [] [3; 4]%Z] [2%Z]] [2%Z]] [4%Z])) /\
  w_ln toy 8%Z = Ok 3%Z /\ w_pow toy 2%Z 3%Z = Ok 8%Z.
Proof. exact (conj in_log_is (conj eq_refl eq_refl)). Qed.

(** Functions chain left to right: the keys l1 give a curve, and the keys l2 go on from it. *)
Theorem C45_chain : forall R C X (w : world R C X) fuel fr cur l1 l2 s, l1 <> [] ->
  parse_descriptor w (S fuel) fr cur (PDict (calls (l1 ++ l2)%list)) s =
  match parse_descriptor w (S fuel) fr cur (PDict (calls l1)) s with
  | (s', Ok (PCurve c)) => parse_descriptor w (S fuel) fr (Some c) (PDict (calls l2)) s'
  | r => r
  end.
Proof. exact (fun R C X w => @chain R C X w). Qed.
Print Assumptions C45_chain.
Theorem C45_chain_curve : forall R C X (w : world R C X) fuel fr cur l s s' v, l <> [] ->
  parse_descriptor w fuel fr cur (PDict (calls l)) s = (s', Ok v) -> exists c, v = PCurve c.
Proof. exact (fun R C X w => @chain_curve R C X w). Qed.
Print Assumptions C45_chain_curve.
Example C45_chain_ex : descriptor toy chained = Ok (PCurve (Cx "add_many" [Cx "sma" [Cx "line" [] [0; 1; 2; 3]%Z] [4%Z]] [5%Z])).
Proof. exact chained_is. Qed.
Theorem C45_class_link : forall R C X (w : world R C X) fuel fr c f v args s, ordinary f ->
  parse_descriptor w fuel true None v s = (s, Ok (PList args)) ->
  let many := (f ++ "_many")%string in
  let name := if w_type_method w c many then many else f in w_type_method w c name = true ->
  parse_descriptor w (S fuel) fr (Some c) (PDict (calls [(f, v)])) s = (s,
    match w_call_type w c name (match args with PList l :: r => PList (PCurve c :: l) :: r | _ => PCurve c :: args end) [] with
    | Ok c' => Ok (PCurve c') | Err e => Err e end).
Proof. exact (fun R C X w => @class_link R C X w). Qed.
Print Assumptions C45_class_link.
Theorem C45_method_link : forall R C X (w : world R C X) fuel fr c f v args s, ordinary f ->
  parse_descriptor w fuel true None v s = (s, Ok (PList args)) ->
  w_type_method w c (f ++ "_many")%string = false -> w_type_method w c f = false -> w_method w c f = true ->
  parse_descriptor w (S fuel) fr (Some c) (PDict (calls [(f, v)])) s = (s,
    match w_call w c f args [] with Ok c' => Ok (PCurve c') | Err e => Err e end).
Proof. exact (fun R C X w => @method_link R C X w). Qed.
Print Assumptions C45_method_link.
Theorem C45_first_link : forall R C X (w : world R C X) fuel fr f v c args s, ordinary f ->
  parse_descriptor w fuel true None v s = (s, Ok (PList (PCurve c :: args))) ->
  w_type_method w (w_obj w) (f ++ "_many")%string = false -> w_type_method w (w_obj w) f = false -> w_method w (w_obj w) f = true ->
  parse_descriptor w (S fuel) fr None (PDict (calls [(f, v)])) s = (s,
    match w_call w c f args [] with Ok c' => Ok (PCurve c') | Err e => Err e end).
Proof. exact (fun R C X w => @first_link R C X w). Qed.
Print Assumptions C45_first_link.
Theorem C45_log_link : forall R C X (w : world R C X) fuel fr c f b v kw s, starts "log" f = true -> base_of w f = Ok b ->
  parse_descriptor w fuel true None v s = (s, Ok (PDict kw)) -> ~ In "@args" (keys kw) -> NoDup (keys kw) ->
  exists kw', (forall k, dget k kw' = match dget k kw with Some x => Some x | None => if String.eqb k "base" then Some (PNum b) else None end) /\
  parse_descriptor w (S fuel) fr (Some c) (PDict (calls [(f, v)])) s = (s,
    match w_log w c kw' with Ok c' => Ok (PCurve c') | Err e => Err e end).
Proof. exact (fun R C X w => @log_link R C X w). Qed.
Print Assumptions C45_log_link.
Example C45_link_ex : ordinary "add" /\ ordinary "sma" /\
  parse_descriptor toy 4 true (Some (w_obj toy)) (PDict (calls [("add", PList [PList [PNum 5%Z]])])) [] = ([], Ok (PCurve (Cx "add_many" [w_obj toy] [5%Z]))) /\
  parse_descriptor toy 4 true None (PDict (calls [("sma", PList [PCurve (w_obj toy); PNum 5%Z])])) [] = ([], Ok (PCurve (Cx "sma" [w_obj toy] [5%Z]))) /\
  parse_descriptor toy 4 true (Some (w_obj toy)) (PDict (calls [("log10", PDict [])])) [] = ([], Ok (PCurve (Cx "log" [w_obj toy] [10%Z]))).
Proof. exact (conj add_ordinary (conj sma_ordinary (conj eq_refl (conj eq_refl eq_refl)))). Qed.

(** The list under "@args" gives the positional arguments, and the other keys,
    without it, the keyword arguments. *)
Theorem C45_args_link : forall R C X (w : world R C X) fuel fr c f v l kw s, ordinary f ->
  parse_descriptor w fuel true None v s = (s, Ok (PDict kw)) -> dget "@args" kw = Some (PList l) -> NoDup (keys kw) ->
  w_type_method w c (f ++ "_many")%string = false -> w_type_method w c f = false -> w_method w c f = true ->
  exists kw', (forall k, dget k kw' = if String.eqb k "@args" then None else dget k kw) /\
  parse_descriptor w (S fuel) fr (Some c) (PDict (calls [(f, v)])) s = (s,
    match w_call w c f l kw' with Ok c' => Ok (PCurve c') | Err e => Err e end).
Proof. exact (fun R C X w => @args_link R C X w). Qed.
Print Assumptions C45_args_link.
Example C45_args_link_ex : ordinary "sma" /\ parse_descriptor toy 3 true None (PDict [("@args", PList [PNum 5%Z]); ("k", PNum 7%Z)]) [] = ([], Ok (PDict [("@args", PList [PNum 5%Z]); ("k", PNum 7%Z)])) /\
  parse_descriptor toy 4 true (Some (w_obj toy)) (PDict (calls [("sma", PDict [("@args", PList [PNum 5%Z]); ("k", PNum 7%Z)])])) [] = ([], Ok (PCurve (Cx "sma" [w_obj toy] [5%Z; 7%Z]))).
Proof. exact (conj sma_ordinary (conj eq_refl eq_refl)). Qed.

(** A decorator whose value is not a curve stands alone. *)
Theorem C45_siblings : forall R C X (w : world R C X) fuel fr cur o v v' s rest,
  parse_descriptor w fuel fr cur v (s ++ [o]) = (s ++ [o], Ok v') ->
  starts "log" o = false -> o <> "args" -> (forall c, v' <> PCurve c) -> rest <> [] ->
  parse_descriptor w (S fuel) fr cur (PDict (("@" ++ o, v)%string :: rest)) s = (s, Err EValue).
Proof. exact (fun R C X w => @decorator_siblings R C X w). Qed.
Print Assumptions C45_siblings.
Example C45_siblings_ex : parse_descriptor toy 3 true None (PDict [("@date", PStr "2020"); ("k", PNum 1%Z)]) [] = ([], Err EValue).
Proof. vm_compute. reflexivity. Qed.

(** Literals that are not converted as the decorators ask: the value of a key, never ... *)
Theorem C45_key_refuted : forall R C X (w : world R C X) fuel fr v k s, atomic v -> starts "@" k = false -> starts "$" k = false ->
  parse_descriptor w (S fuel) fr None (PDict [(k, v)]) s = (s, Ok (PDict [(k, v)])).
Proof. exact (fun R C X w => @key_literal R C X w). Qed.
Print Assumptions C45_key_refuted.
Example C45_key_refuted_ex : descriptor toy key_in_log = Ok (PCurve (Cx "pow" [Cx "line" [] [256%Z]] [2%Z])).
Proof. exact key_in_log_is. Qed.
(** ... those of "@args", twice ... *)
Theorem C45_args_refuted : forall R C X (w : world R C X) fuel r r1 r2 s, ~ In "date" s -> In "log" s -> w_ln w r = Ok r1 -> w_ln w r1 = Ok r2 ->
  parse_descriptor w (S (S (S fuel))) true None (PDict [("@args", PList [PNum r])]) s = (s, Ok (PDict [("@args", PList [PNum r2])])).
Proof. exact (fun R C X w => @args_twice R C X w). Qed.
Print Assumptions C45_args_refuted.
Example C45_args_refuted_ex : descriptor toy args_in_log = Ok (PCurve (Cx "pow" [Cx "line" [] [3%Z]] [2%Z])) /\ w_ln toy 256%Z = Ok 8%Z.
Proof. exact (conj args_in_log_is eq_refl). Qed.
(** ... those in a logarithm to a base other than e, 2 and 10, on the way out only ... *)
Theorem C45_base_refuted : forall R C X (w : world R C X) fuel o b r r' s, starts "log" o = true -> o <> "log" -> o <> "log2" -> o <> "log10" ->
  ~ In "date" s -> ~ In "log" s -> ~ In "log2" s -> ~ In "log10" s -> base_of w o = Ok b -> w_pow w b r = Ok r' ->
  parse_descriptor w (S (S fuel)) true None (PDict [("@" ++ o, PNum r)])%string s = (s, Ok (PNum r')).
Proof. exact (fun R C X w => @other_base R C X w). Qed.
Print Assumptions C45_base_refuted.
Example C45_base_refuted_ex : parse_descriptor toy 2 true None (PDict [("@log3", PNum 2%Z)]) [] = ([], Ok (PNum 9%Z)).
Proof. vm_compute. reflexivity. Qed.
(** ... those in two logarithms, once, and out of both ... *)
Theorem C45_nested_refuted : forall R C X (w : world R C X) fuel b r r1 r2 r3, w_ln w r = Ok r1 -> w_pow w (w_e w) r1 = Ok r2 ->
  w_int w "10" = Ok b -> w_pow w b r2 = Ok r3 ->
  parse_descriptor w (S (S (S fuel))) true None (PDict [("@log10", PDict [("@log", PNum r)])]) [] = ([], Ok (PNum r3)).
Proof. exact (fun R C X w => @nested_logs R C X w). Qed.
Print Assumptions C45_nested_refuted.
Example C45_nested_refuted_ex : parse_descriptor toy 3 true None (PDict [("@log10", PDict [("@log", PNum 2%Z)])]) [] = ([], Ok (PNum 100%Z)).
Proof. vm_compute. reflexivity. Qed.
(** ... and a sequence of them raises. *)
Theorem C45_log_list_refuted : forall R C X (w : world R C X) fuel o b l l' s, starts "log" o = true -> base_of w o = Ok b ->
  parse_descriptor w fuel true None (PList l) (s ++ [o]) = ((s ++ [o])%list, Ok (PList l')) ->
  parse_descriptor w (S fuel) true None (PDict [("@" ++ o, PList l)])%string s = (s, Err EType).
Proof. exact (fun R C X w => @log_of_list R C X w). Qed.
Print Assumptions C45_log_list_refuted.
Example C45_log_list_refuted_ex : parse_descriptor toy 3 true None (PDict [("@log", PList [PNum 2%Z])]) [] = ([], Err EType).
Proof. vm_compute. reflexivity. Qed.

(** flatten yields the leaves, left to right. *)
Theorem C46_flatten : forall A (t : item A), exists ps, StronglySorted left_of ps /\ (forall p, In p ps <-> leaf_path t p) /\
  map Some (flatten t) = map (sub t) ps.
Proof. exact @flatten_paths. Qed.
Print Assumptions C46_flatten.
Theorem C46_flatten_again : forall A (t : item A), flatten (IIter (flatten t)) = flatten t.
Proof. exact @flatten_again. Qed.
Print Assumptions C46_flatten_again.
Example C46_flatten_ex : flatten nest = [IAtom 1; IStr "ab"; INone; IMap [("k", 2)]; IAtom 3] /\
  sub nest [3; 0; 0] = Some (IMap [("k", 2)]) /\ left_of [0; 1] [3; 0; 0].
Proof. exact (conj nest_flat (conj eq_refl (ex_intro _ [] (ex_intro _ 0 (ex_intro _ 3 (ex_intro _ [1] (ex_intro _ [0; 0] (conj eq_refl (conj eq_refl (Nat.lt_0_succ 2)))))))))). Qed.

(** extend: the last of the others that has a key gives its value, new keys
    come after those of primary, and primary changes only in place. *)
Theorem C46_extend : forall A (p : option (dict A)) os ip, Forall good_other (flatten (IIter os)) -> (ip = true -> p <> None) ->
  exists d, extend p os ip = (if ip then Some d else p, Ok (Some d)) /\
    (forall k ms1 m ms2 v, maps (flatten (IIter os)) = (ms1 ++ m :: ms2)%list -> dget k m = Some v ->
       Forall (fun m => dget k m = None) ms2 -> dget k d = Some v) /\
    (forall k, Forall (fun m => dget k m = None) (maps (flatten (IIter os))) -> dget k d = dget k (or_empty p)) /\
    exists new, keys d = (keys (or_empty p) ++ new)%list /\ NoDup new /\
      (forall k, In k new <-> (exists m, In m (maps (flatten (IIter os))) /\ In k (keys m)) /\ ~ In k (keys (or_empty p))).
Proof. exact @extend_copies. Qed.
Print Assumptions C46_extend.
Theorem C46_untouched : forall A (p : option (dict A)) os, fst (extend p os false) = p.
Proof. exact @extend_untouched. Qed.
Print Assumptions C46_untouched.
Theorem C46_nested : forall A (p : option (dict A)) os ip, extend p [IIter os] ip = extend p os ip.
Proof. exact @extend_nested. Qed.
Print Assumptions C46_nested.
Example C46_extend_ex : Forall good_other (flatten (IIter two_maps)) /\
  extend (Some [("b", 0); ("c", 9)]) two_maps false = (Some [("b", 0); ("c", 9)], Ok (Some [("b", 3); ("c", 9); ("a", 1); ("d", 4)])) /\
  extend (Some [("b", 0); ("c", 9)]) two_maps true = (Some [("b", 3); ("c", 9); ("a", 1); ("d", 4)], Ok (Some [("b", 3); ("c", 9); ("a", 1); ("d", 4)])).
Proof. exact (conj two_maps_good (conj eq_refl eq_refl)). Qed.
(** Anything else among the others raises; in place, what came before it stays. *)
Theorem C46_raises : forall A (d : dict A) os l1 x l2 ip, flatten (IIter os) = (l1 ++ x :: l2)%list -> Forall good_other l1 ->
  x <> INone -> (forall m, x <> IMap m) ->
  extend (Some d) os ip = (Some (if ip then fold_left dcopy (maps l1) d else d), Err EAttr).
Proof. exact @extend_raises. Qed.
Print Assumptions C46_raises.
Theorem C46_none : forall A os k (v : A) m l1 l2, flatten (IIter os) = (l1 ++ IMap ((k, v) :: m) :: l2)%list ->
  Forall (fun x => x = INone \/ x = IMap []) l1 -> extend None os true = (None, Err EType).
Proof. exact @extend_none. Qed.
Print Assumptions C46_none.
Example C46_raises_ex : extend (Some [("b", 0)]) (two_maps ++ [IStr "s"])%list true = (Some [("b", 3); ("a", 1); ("d", 4)], Err EAttr) /\
  extend None two_maps true = (None, Err EType) /\ extend None two_maps false = (None, Ok (Some [("a", 1); ("b", 3); ("d", 4)])).
Proof. exact (conj eq_refl (conj eq_refl eq_refl)). Qed.
