(** Positional arguments under "@args" (curve.py:984-996). *)
From Coq Require Import List String Ascii Bool Arith Lia.
From Verif Require Import Base Util UtilFacts Descriptor DescriptorFacts DescriptorTop.
Import ListNotations.
Open Scope list_scope.

Lemma dget_ddel {A} (d : dict A) k k' : NoDup (keys d) -> dget k' (ddel d k) = if String.eqb k' k then None else dget k' d.
Proof.
  induction d as [|[a v] d IH]; intros H; [cbn; destruct (String.eqb k' k); reflexivity|].
  cbn [keys map fst] in H. inversion H as [|x0 l0 H1 H2 X0]. specialize (IH H2). cbn [ddel dget].
  destruct (String.eqb k a) eqn:E1, (String.eqb k' a) eqn:E2, (String.eqb k' k) eqn:E3; cbn [dget]; rewrite ?E2, ?IH, ?E3; try reflexivity.
  all: repeat match goal with E : String.eqb _ _ = true |- _ => apply (proj1 (String.eqb_eq _ _)) in E | E : String.eqb _ _ = false |- _ => apply (proj1 (String.eqb_neq _ _)) in E end; try congruence.
  all: assert (Q : k' = a) by congruence; rewrite Q; destruct (dget a d) eqn:G; [exfalso; apply H1, dget_in; congruence|reflexivity].
Qed.
Section Args.
Context {R C X : Type} (w : world R C X).
Theorem args_link fuel fr c f (v : pv R C X) l kw s : ordinary f -> parse_descriptor w fuel true None v s = (s, Ok (PDict kw)) -> dget "@args" kw = Some (PList l) -> NoDup (keys kw) ->
  w_type_method w c (f ++ "_many") = false -> w_type_method w c f = false -> w_method w c f = true ->
  exists kw', (forall k, dget k kw' = if String.eqb k "@args" then None else dget k kw) /\
  parse_descriptor w (S fuel) fr (Some c) (PDict (calls [(f, v)])) s = (s, match w_call w c f l kw' with Ok c' => Ok (PCurve c') | Err e => Err e end).
Proof.
  intros O E A ND H1 H2 H3. exists (ddel kw "@args"). split; [intros k; apply dget_ddel, ND|].
  rewrite link. unfold function_key, bind, lift. change (drop 1 (call f)) with f.
  rewrite ordinary_constructor by exact O. unfold next_func_constructor, or_obj. rewrite H1, H2, H3, E. unfold split_args. rewrite A.
  cbn [from_instance construct or_obj rbind]. destruct (w_call w c f l (ddel kw "@args")); reflexivity.
Qed.
End Args.
