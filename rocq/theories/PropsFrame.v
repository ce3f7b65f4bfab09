(** Property C113: the options of the attribute do not interfere. *)
From Coq Require Import List Ascii String Bool Arith NArith Lia.
From Verif Require Import Base Syntax SelfTy Turbofish MacroArgs MacroMod.
Import ListNotations.
Local Open Scope nat_scope.

(** Two sets of options that agree on ... *)
Definition same_conversions (a b : mopts) : Prop := o_convert a = o_convert b.
Definition same_arguments (a b : mopts) : Prop := o_impl_generic_args a = o_impl_generic_args b /\ o_generic_args a = o_generic_args b.
(** ... which of the two lists of generic arguments are given. *)
Definition same_given (a b : mopts) : Prop :=
  (o_impl_generic_args a = None <-> o_impl_generic_args b = None) /\ (o_generic_args a = None <-> o_generic_args b = None).

Lemma is_none_iff {A B} (x : option A) (y : option B) : (x = None <-> y = None) -> is_none x = is_none y.
Proof. intros [P Q]. destruct x, y; try reflexivity; [now specialize (Q eq_refl)|now specialize (P eq_refl)]. Qed.

(** Whether a target can be expanded depends on the conversions and the generic arguments, and
    in a fuzzing build on [only_generic_args]; on no other option. *)
Theorem C113_accepted :
  forall cf generics tp self a b attrs draws f,
    same_conversions a b -> same_arguments a b -> (cfg_fuzzing cf = true -> o_only_generic_args a = o_only_generic_args b) ->
    ((exists r, map_method_or_fn cf generics tp self a attrs draws f = Ret r) <->
     (exists r, map_method_or_fn cf generics tp self b attrs draws f = Ret r)).
Proof.
  intros cf generics tp self a b attrs draws f C [I G] O.
  assert (H : forall a b, same_conversions a b -> o_impl_generic_args a = o_impl_generic_args b -> o_generic_args a = o_generic_args b ->
              (cfg_fuzzing cf = true -> o_only_generic_args a = o_only_generic_args b) ->
              (exists r, map_method_or_fn cf generics tp self a attrs draws f = Ret r) -> (exists r, map_method_or_fn cf generics tp self b attrs draws f = Ret r)).
  { clear. intros a b C I G O [r R]. unfold same_conversions in C. unfold map_method_or_fn in *.
    assert (E : early cf generics a f = early cf generics b f).
    { unfold early. destruct (cfg_fuzzing cf); [|reflexivity]. rewrite (O eq_refl), I, G. reflexivity. }
    assert (K : callee generics tp self a (f_name f) = callee generics tp self b (f_name f)) by (unfold callee; now rewrite I, G).
    rewrite <- E, <- K, <- C, <- I, <- G.
    destruct (make_table _ _) as [c| |]; cbn [bind] in R |- *; try discriminate R. destruct (early cf generics a f); [discriminate R|].
    destruct (with_dummy_lifetimes _ _) as [l| |]; cbn [bind] in R |- *; try discriminate R.
    destruct (expand_args _ _ _ _ _) as [rs| |]; cbn [bind] in R |- *; try discriminate R.
    match goal with |- context [bind ?x _] => destruct x as [t| |]; cbn [bind] in R |- *; try discriminate R end.
    destruct (callee _ _ _ _ _) as [p| |]; cbn [bind] in R |- *; try discriminate R. eauto. }
  split; apply H; unfold same_conversions in *; try congruence; intros F; now rewrite (O F).
Qed.
Print Assumptions C113_accepted.

(** Each part of the expansion depends on the options that are there for it: the function
    on none; what records on two; the module's name on [rename]; and so on. *)
Theorem C113_parts :
  forall cf generics tp self a b attrs draws f fa ia ma fb ib mb,
    map_method_or_fn cf generics tp self a attrs draws f = Ret (fa, ia, ma) ->
    map_method_or_fn cf generics tp self b attrs draws f = Ret (fb, ib, mb) ->
    fa = fb /\ md_ret ma = md_ret mb /\
    (o_enable_in_production a = o_enable_in_production b -> o_only_generic_args a = o_only_generic_args b -> ia = ib) /\
    (o_enable_in_production a = o_enable_in_production b -> md_test_only ma = md_test_only mb) /\
    (o_rename a = o_rename b -> md_name ma = md_name mb) /\
    (same_conversions a b -> o_only_generic_args a = o_only_generic_args b -> md_fields ma = md_fields mb) /\
    (same_conversions a b -> md_call_args ma = md_call_args mb) /\
    (same_arguments a b -> md_callee ma = md_callee mb) /\
    (same_given a b -> o_only_generic_args a = o_only_generic_args b -> md_entry ma = md_entry mb) /\
    (same_given a b -> o_only_generic_args a = o_only_generic_args b -> o_no_auto_generate a = o_no_auto_generate b -> md_auto ma = md_auto mb) /\
    md_execute_with ma = o_execute_with a /\ md_bounds ma = o_bounds a.
Proof.
  intros cf generics tp self a b attrs draws f fa ia ma fb ib mb A B. unfold map_method_or_fn in A, B.
  assert (N : same_given a b -> o_only_generic_args a = o_only_generic_args b -> no_entry generics a f = no_entry generics b f).
  { intros [P Q] O. unfold no_entry. now rewrite O, (is_none_iff _ _ P), (is_none_iff _ _ Q). }
  assert (K : same_arguments a b -> callee generics tp self a (f_name f) = callee generics tp self b (f_name f)).
  { intros [P Q]. unfold callee. now rewrite P, Q. }
  destruct (make_table (o_convert a) []) as [ca| |]; cbn [bind] in A; try discriminate A. destruct (early cf generics a f); [discriminate A|].
  destruct (make_table (o_convert b) []) as [cb| |]; cbn [bind] in B; try discriminate B. destruct (early cf generics b f); [discriminate B|].
  destruct (with_dummy_lifetimes _ (or_empty (combine_options (o_impl_generic_args a) _ _))) as [la| |]; cbn [bind] in A; try discriminate A.
  destruct (with_dummy_lifetimes _ (or_empty (combine_options (o_impl_generic_args b) _ _))) as [lb| |]; cbn [bind] in B; try discriminate B.
  destruct (expand_args tp self (o_convert a) _ _) as [ra| |] eqn:Ra; cbn [bind] in A; try discriminate A.
  destruct (expand_args tp self (o_convert b) _ _) as [rb| |] eqn:Rb; cbn [bind] in B; try discriminate B.
  match type of A with context [bind ?x _] => destruct x as [t| |]; cbn [bind] in A, B; try discriminate A end.
  destruct (callee generics tp self a (f_name f)) as [pa| |]; cbn [bind] in A; try discriminate A.
  destruct (callee generics tp self b (f_name f)) as [pb| |]; cbn [bind] in B; try discriminate B.
  assert (Q : same_conversions a b -> ra = rb) by (unfold same_conversions; intros C; rewrite C in Ra; congruence).
  injection A as <- <- <-. injection B as <- <- <-.
  cbn [md_name md_test_only md_fields md_callee md_call_args md_execute_with md_bounds md_ret md_entry md_auto].
  split; [reflexivity|]. split; [reflexivity|]. split; [intros -> ->; reflexivity|]. split; [intros ->; reflexivity|]. split; [intros ->; reflexivity|].
  split; [intros C ->; now rewrite (Q C)|]. split; [intros C; now rewrite (Q C)|]. split; [intros S0; specialize (K S0); congruence|].
  split; [intros S0 O; now rewrite (N S0 O)|]. split; [intros S0 O ->; now rewrite (N S0 O)|]. split; reflexivity.
Qed.
Print Assumptions C113_parts.

(** A generic function, expanded with two sets of options that differ in everything but the
    conversions and the generic arguments. *)
Example C113_example :
  let f := {| f_attrs := []; f_vis := [tk "pub"]; f_default := false; f_name := lit "f"; f_generics := [PType (lit "T")];
              f_inputs := [Typed 0 (PatIdent (lit "x") None) (RRef None false (rname "T"))]; f_output := None; f_rest := []; f_stmts := [[tk "x"]] |} in
  let a := {| o_bounds := None; o_convert := []; o_enable_in_production := false; o_execute_with := None; o_generic_args := Some [GType (rname "u8")];
              o_impl_generic_args := None; o_no_auto_generate := false; o_only_generic_args := false; o_rename := None |} in
  let b := {| o_bounds := Some [lit "T: Clone"]; o_convert := []; o_enable_in_production := true; o_execute_with := Some [tk "run"];
              o_generic_args := Some [GType (rname "u8")]; o_impl_generic_args := None; o_no_auto_generate := true; o_only_generic_args := false;
              o_rename := Some (lit "g") |} in
  exists fa ia ma ib mb,
    test_fuzz {| cfg_fuzzing := true; cfg_cast_checks := false |} a [0%N] f = Ret (fa, ia, ma) /\
    test_fuzz {| cfg_fuzzing := true; cfg_cast_checks := false |} b [0%N] f = Ret (fa, ib, mb) /\
    md_fields ma = md_fields mb /\ md_callee mb = map tk ["super"; ":"; ":"; "f"; ":"; ":"; "<"; "u8"; ">"]%string /\ md_callee ma = md_callee mb /\
    md_name ma = lit "f_fuzz__" /\ md_name mb = lit "g_fuzz__" /\ md_execute_with mb = Some [tk "run"] /\ md_execute_with ma = None /\
    md_auto ma = true /\ md_auto mb = false /\ md_entry ma = true /\ md_entry mb = true /\ ia <> ib.
Proof.
  do 5 eexists. cbv zeta. split; [vm_compute; reflexivity|]. split; [vm_compute; reflexivity|]. vm_compute. repeat split. discriminate.
Qed.
