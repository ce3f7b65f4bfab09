(** C23, C24 and C78: the generated module and the instrumented items. *)
From Coq Require Import List Ascii String Bool Arith NArith Lia.
From Verif Require Import Base Targets Dirs Syntax SelfTy Turbofish MacroArgs MacroMod.
Import ListNotations.
Local Open Scope nat_scope.

(** ** C23 *)

(** The documented name of a target: the name given with [rename]; in an impl for a type
    named by a path, the last name of the path, an underscore and the name of the function;
    otherwise the name of the function. *)
Inductive stem (rename : option str) (self : option rty) (name : str) : str -> Prop :=
  | stem_rename s : rename = Some s -> stem rename self name s
  | stem_impl q lead segs base args : rename = None -> self = Some (RPath q lead (segs ++ [(base, args)])) ->
      stem rename self name (base ++ lit "_" ++ name)
  | stem_free : rename = None -> (forall q lead segs base args, self <> Some (RPath q lead (segs ++ [(base, args)]))) -> stem rename self name name.

Lemma bind_ret A B (x : outcome A) (f : A -> outcome B) b : bind x f = Ret b -> exists a, x = Ret a /\ f a = Ret b.
Proof. destruct x; cbn; intros E; [eauto|discriminate|discriminate]. Qed.

Lemma ret_inj A (a b : A) : Ret a = Ret b -> a = b.
Proof. now injection 1. Qed.
Lemma pair_inj A B (a a' : A) (b b' : B) : (a, b) = (a', b') -> a = a' /\ b = b'.
Proof. now injection 1. Qed.

Lemma type_base_spec t b : type_base t = Some b <-> exists q lead segs args, t = RPath q lead (segs ++ [(b, args)]).
Proof.
  split.
  - destruct t; try discriminate. cbn [type_base]. destruct (rev segs) as [|[s a] l] eqn:R; [discriminate|]. intros E. injection E as <-. cbn [fst].
    exists qself, lead, (rev l), a. rewrite <- (rev_involutive segs), R. reflexivity.
  - intros (q & lead & segs & args & ->). cbn [type_base]. rewrite rev_app_distr. reflexivity.
Qed.

Lemma mod_ident_stem rename self name s :
  stem rename self name s <-> mod_ident rename (match self with Some t => type_base t | None => None end) name = s ++ lit "_fuzz__".
Proof.
  unfold mod_ident. split.
  - intros H. destruct H as [s ->|q lead segs base args -> -> | -> N]; [reflexivity| |].
    + assert (B : type_base (RPath q lead (segs ++ [(base, args)])) = Some base) by (apply type_base_spec; eauto). rewrite B, <- !app_assoc. reflexivity.
    + destruct self as [t|]; [|reflexivity]. destruct (type_base t) as [b|] eqn:B; [|reflexivity]. apply type_base_spec in B as (q & lead & segs & args & ->).
      exfalso. eapply N. reflexivity.
  - intros E. apply app_inv_tail in E. destruct rename as [r|]; [subst; now constructor|].
    destruct self as [t|]; [|subst; apply stem_free; [reflexivity|discriminate]]. destruct (type_base t) as [b|] eqn:B.
    + apply type_base_spec in B as (q & lead & segs & args & ->). subst s. rewrite <- app_assoc. eapply stem_impl; reflexivity.
    + subst s. apply stem_free; [reflexivity|]. intros q lead segs base args E. injection E as ->.
      assert (X : type_base (RPath q lead (segs ++ [(base, args)])) = Some base) by (apply type_base_spec; eauto). congruence.
Qed.

Lemma map_method_name cf generics tp self o attrs draws f f' ins m : map_method_or_fn cf generics tp self o attrs draws f = Ret (f', ins, m) ->
  md_name m = mod_ident (o_rename o) (match self with Some t => type_base t | None => None end) (f_name f).
Proof.
  unfold map_method_or_fn. intros E. apply bind_ret in E as (c & _ & E). destruct (early _ _ _ _); [discriminate|].
  apply bind_ret in E as (l & _ & E). apply bind_ret in E as (rs & _ & E). apply bind_ret in E as (ret & _ & E). apply bind_ret in E as (p & _ & E). injection E as _ _ <-. reflexivity.
Qed.

(** The module is called after the target. *)
Theorem C23_rule :
  forall cf generics tp self o attrs draws f f' ins m s,
    map_method_or_fn cf generics tp self o attrs draws f = Ret (f', ins, m) -> stem (o_rename o) self (f_name f) s ->
    md_name m = s ++ lit "_fuzz__".
Proof. intros. erewrite map_method_name by eauto. now apply mod_ident_stem. Qed.
Print Assumptions C23_rule.

(** Every target has exactly one stem. *)
Theorem C23_stem_unique :
  forall rename self name, exists s, stem rename self name s /\ forall s', stem rename self name s' -> s' = s.
Proof.
  intros rename self name. remember (mod_ident rename (match self with Some t => type_base t | None => None end) name) as n eqn:E.
  assert (X : exists s, n = s ++ lit "_fuzz__") by (subst; unfold mod_ident; eauto). destruct X as [s ->]. exists s. split; [now apply mod_ident_stem|].
  intros s' H. apply mod_ident_stem in H. rewrite <- E in H. now apply app_inv_tail in H.
Qed.
Print Assumptions C23_stem_unique.

(** Two targets get the same module name exactly if they have the same stem. *)
Theorem C23_collision_exact :
  forall cf1 g1 tp1 self1 o1 attrs1 draws1 f1 f1' ins1 m1 s1 cf2 g2 tp2 self2 o2 attrs2 draws2 f2 f2' ins2 m2 s2,
    map_method_or_fn cf1 g1 tp1 self1 o1 attrs1 draws1 f1 = Ret (f1', ins1, m1) -> stem (o_rename o1) self1 (f_name f1) s1 ->
    map_method_or_fn cf2 g2 tp2 self2 o2 attrs2 draws2 f2 = Ret (f2', ins2, m2) -> stem (o_rename o2) self2 (f_name f2) s2 ->
    (md_name m1 = md_name m2 <-> s1 = s2).
Proof.
  intros. rewrite (C23_rule _ _ _ _ _ _ _ _ _ _ _ _ H H0), (C23_rule _ _ _ _ _ _ _ _ _ _ _ _ H1 H2). split; [apply app_inv_tail|congruence].
Qed.
Print Assumptions C23_collision_exact.

Lemma split_underscore a b c d : ~ In "_"%char a -> ~ In "_"%char c -> a ++ lit "_" ++ b = c ++ lit "_" ++ d -> a = c /\ b = d.
Proof.
  revert c. induction a as [|x a IH]; intros [|y c] Na Nc E; cbn [app lit list_ascii_of_string] in E.
  - injection E as ->. auto.
  - exfalso. injection E as E _. apply Nc. left. congruence.
  - exfalso. injection E as E _. apply Na. left. congruence.
  - injection E as -> E. destruct (IH c) as [-> ->]; auto; intros I; [apply Na|apply Nc]; now right.
Qed.

(** Without [rename]: free functions of the same name; a free function named like the type
    and the method; methods of types with the same last name, if these have no underscore. *)
Theorem C23_collision_cases :
  forall n1 n2 q1 lead1 segs1 b1 a1 q2 lead2 segs2 b2 a2 s1 s2,
    let ty1 := RPath q1 lead1 (segs1 ++ [(b1, a1)]) in let ty2 := RPath q2 lead2 (segs2 ++ [(b2, a2)]) in
    (stem None None n1 s1 -> stem None None n2 s2 -> (s1 = s2 <-> n1 = n2)) /\
    (stem None None n1 s1 -> stem None (Some ty2) n2 s2 -> (s1 = s2 <-> n1 = b2 ++ lit "_" ++ n2)) /\
    (stem None (Some ty1) n1 s1 -> stem None (Some ty2) n2 s2 -> ~ In "_"%char b1 -> ~ In "_"%char b2 -> (s1 = s2 <-> b1 = b2 /\ n1 = n2)).
Proof.
  intros. assert (FREE : forall n s, stem None None n s -> s = n) by (intros n s H; inversion H; congruence).
  assert (IMPL : forall q lead segs b a n s, stem None (Some (RPath q lead (segs ++ [(b, a)]))) n s -> s = b ++ lit "_" ++ n).
  { intros q lead segs b a n s H. inversion H as [? E|? ? ? ? ? _ E|? N]; [discriminate| |].
    - injection E as _ _ E. apply app_inj_tail in E as [_ E]. injection E as -> _. reflexivity.
    - exfalso. eapply N. reflexivity. }
  split; [|split].
  - intros A B. apply FREE in A, B. subst. reflexivity.
  - intros A B. apply FREE in A. apply IMPL in B. subst. reflexivity.
  - intros A B N1 N2. apply IMPL in A, B. subst. split; [intros E; now apply split_underscore in E|intros [-> ->]; reflexivity].
Qed.
Print Assumptions C23_collision_cases.

(** The target is found by [cargo test-fuzz] under its scope and stem (C11), and the
    directories are those the instrumented function writes to (C07). *)
Theorem C23_discovered :
  forall cf generics tp self o attrs draws f f' ins m s scope,
    map_method_or_fn cf generics tp self o attrs draws f = Ret (f', ins, m) -> stem (o_rename o) self (f_name f) s ->
    listing_targets [scope ++ md_name m ++ lit "::entry: test"] [scope ++ s] /\
    forall td id k krate c rest, crate_of krate c -> ~ occurs (lit "_fuzz__") (c ++ lit "::" ++ (scope ++ s) ++ lit "_fuzz_") ->
      dir_from_args_type td id k (c ++ lit "::" ++ scope ++ md_name m ++ rest) = dir_from_target td id k krate (scope ++ s).
Proof.
  intros. rewrite (C23_rule _ _ _ _ _ _ _ _ _ _ _ _ H H0). split.
  - replace (scope ++ (s ++ lit "_fuzz__") ++ lit "::entry: test") with ((scope ++ s) ++ lit "_fuzz__::entry: test") by (rewrite <- !app_assoc; reflexivity).
    constructor. constructor.
  - intros td id k krate c rest C N. rewrite <- (dir_agreement td id k krate c (scope ++ s) rest C N). f_equal. unfold args_type_name. now rewrite <- !app_assoc.
Qed.
Print Assumptions C23_discovered.

Definition example_func (name : str) (attrs : list attr) (inputs : list fn_arg) : func :=
  {| f_attrs := attrs; f_vis := []; f_default := false; f_name := name; f_generics := []; f_inputs := inputs; f_output := None; f_rest := []; f_stmts := [[tk "x"]] |}.

(** [fn Foo_bar] and [bar] in [impl Foo] collide; so do the [bar] of two traits implemented for [Foo]. *)
Theorem C23_distinct_targets_refuted :
  exists m1 m2 m3 f1 f2 f3 i1 i2 i3,
    let cf := {| cfg_fuzzing := false; cfg_cast_checks := false |} in
    test_fuzz cf default_mopts [] (example_func (lit "Foo_bar") [] []) = Ret (f1, i1, m1) /\
    map_method_or_fn cf [] (Some (false, [(lit "A", ANone)])) (Some (rname "Foo")) default_mopts [] [] (example_func (lit "bar") [] []) = Ret (f2, i2, m2) /\
    map_method_or_fn cf [] (Some (false, [(lit "B", ANone)])) (Some (rname "Foo")) default_mopts [] [] (example_func (lit "bar") [] []) = Ret (f3, i3, m3) /\
    md_name m1 = md_name m2 /\ md_name m2 = md_name m3 /\ md_callee m1 <> md_callee m2 /\ md_callee m2 <> md_callee m3.
Proof. do 9 eexists. cbv zeta. split; [vm_compute; reflexivity|]. split; [vm_compute; reflexivity|]. split; [vm_compute; reflexivity|]. repeat split; discriminate. Qed.
Print Assumptions C23_distinct_targets_refuted.

Example C23_example :
  exists f' ins m,
    map_method_or_fn {| cfg_fuzzing := true; cfg_cast_checks := false |} [PType (lit "T")] None (Some (RPath None false [(lit "m", ANone); (lit "Foo", AAngle false [GType (rname "T")])]))
      {| o_bounds := None; o_execute_with := None; o_convert := []; o_enable_in_production := false; o_generic_args := None; o_impl_generic_args := Some [GType (rname "u8")];
         o_no_auto_generate := false; o_only_generic_args := false; o_rename := None |}
      [] [3%N; 8%N] (example_func (lit "bar") [] [Receiver 0 false (ByRef None false)]) = Ret (f', ins, m) /\
    md_name m = lit "Foo_bar_fuzz__" /\
    md_callee m = [tk "m"; tk ":"; tk ":"; tk "Foo"; tk ":"; tk ":"; tk "<"; tk "u8"; tk ">"; tk ":"; tk ":"; tk "bar"] /\
    md_call_args m = [ERef false (EField (lit "_8"))] /\ option_map (map fst) (md_fields m) = Some [lit "_8"; lit "_3"] /\
    stem None (Some (RPath None false [(lit "m", ANone); (lit "Foo", AAngle false [GType (rname "T")])])) (lit "bar") (lit "Foo_bar").
Proof.
  do 3 eexists. split; [vm_compute; reflexivity|]. repeat (split; [vm_compute; reflexivity|]).
  exact (stem_impl None _ (lit "bar") None false [(lit "m", ANone)] (lit "Foo") _ eq_refl eq_refl).
Qed.

(** ** C24 *)

(** An attribute that counts: every name in its path is [test_fuzz]. *)
Definition marks_target (a : attr) : Prop := Forall (fun s => s = lit "test_fuzz") (at_path a).
Definition marked (f : func) : Prop := Exists marks_target (f_attrs f).

(** [f'] is [f] without its first [test_fuzz] attribute [a] and without the attributes of its
    parameters; [extra] is added at the end of the attributes. *)
Definition instrumented_version (extra : list attr) (a : attr) (f f' : func) : Prop :=
  (exists pre post, f_attrs f = pre ++ a :: post /\ marks_target a /\ Forall (fun x => ~ marks_target x) pre /\ f_attrs f' = pre ++ post ++ extra) /\
  f_vis f' = f_vis f /\ f_default f' = f_default f /\ f_name f' = f_name f /\ f_generics f' = f_generics f /\ f_output f' = f_output f /\
  f_rest f' = f_rest f /\ f_stmts f' = f_stmts f /\
  Forall2 (fun a a' => match a, a' with
                       | Receiver _ m k, Receiver 0 m' k' => m = m' /\ k = k'
                       | Typed _ p t, Typed 0 p' t' => p = p' /\ t = t'
                       | _, _ => False
                       end) (f_inputs f) (f_inputs f').

Inductive item_mapped (cf : config) (options : attr -> outcome mopts) (self : rty) : item -> mapped_item -> option module -> Prop :=
  | im_other l : item_mapped cf options self (IOther l) (IOther l, []) None
  | im_unmarked f : ~ marked f -> item_mapped cf options self (IFn f) (IFn f, []) None
  | im_marked f a f' ins m o s : instrumented_version (if cfg_cast_checks cf then [{| at_path := [lit "test_fuzz"; lit "cast_checks"; lit "enable"]; at_args := [] |}] else []) a f f' ->
      options a = Ret o ->
      ins = (if cfg_cast_checks cf then [UseCastChecks] else []) ++ [WriteInTests (negb (o_only_generic_args o))] ++ (if o_enable_in_production o then [WriteInProduction (negb (o_only_generic_args o))] else []) ->
      stem (o_rename o) (Some self) (f_name f) s -> md_name m = s ++ lit "_fuzz__" -> item_mapped cf options self (IFn f) (IFn f', ins) (Some m).

Lemma is_test_fuzz_spec a : is_test_fuzz a = true <-> marks_target a.
Proof.
  unfold is_test_fuzz, marks_target. rewrite forallb_forall, Forall_forall. split; intros H x I; specialize (H x I); now apply str_eqb_eq.
Qed.

Lemma take_attr_some l a r : take_attr l = Some (a, r) -> exists pre post, l = pre ++ a :: post /\ marks_target a /\ Forall (fun x => ~ marks_target x) pre /\ r = pre ++ post.
Proof.
  revert a r. induction l as [|x l IH]; intros a r E; [discriminate|]. cbn [take_attr] in E. destruct (is_test_fuzz x) eqn:T.
  - injection E as <- <-. exists [], l. repeat split; [now apply is_test_fuzz_spec|constructor].
  - destruct (take_attr l) as [[a' r']|]; [|discriminate]. cbn in E. injection E as <- <-. destruct (IH _ _ eq_refl) as (pre & post & -> & M & F & ->).
    exists (x :: pre), post. repeat split; auto. constructor; [|exact F]. intros X. apply is_test_fuzz_spec in X. congruence.
Qed.
Lemma take_attr_none l : take_attr l = None <-> ~ Exists marks_target l.
Proof.
  induction l as [|x l IH]; cbn [take_attr]; [split; [intros _ H; inversion H|reflexivity]|]. destruct (is_test_fuzz x) eqn:T.
  - split; [discriminate|]. intros N. exfalso. apply N. constructor. now apply is_test_fuzz_spec.
  - destruct (take_attr l) as [[a' r']|]; cbn; (split; [|try reflexivity]).
    + discriminate.
    + intros N. exfalso. assert (X : ~ Exists marks_target l) by (intros X; apply N; now constructor 2). apply IH in X. discriminate.
    + intros _ X. inversion X as [? ? H|? ? H]; subst; [apply is_test_fuzz_spec in H; congruence|]. now apply IH in H.
Qed.

Lemma strip_inputs l : Forall2 (fun a a' => match a, a' with
                       | Receiver _ m k, Receiver 0 m' k' => m = m' /\ k = k'
                       | Typed _ p t, Typed 0 p' t' => p = p' /\ t = t'
                       | _, _ => False
                       end) l (map strip_attrs l).
Proof. induction l as [|a l IH]; constructor; [destruct a; cbn; auto|exact IH]. Qed.

Lemma map_impl_item_spec cf options generics tp self draws i r m : map_impl_item cf options generics tp self draws i = Ret (r, m) -> item_mapped cf options self i r m.
Proof.
  destruct i as [f|l]; cbn [map_impl_item].
  - destruct (take_attr (f_attrs f)) as [[a attrs]|] eqn:T.
    + intros E. apply bind_ret in E as (o & O & E). apply bind_ret in E as ([[f' ins] md] & M & E). injection E as <- <-.
      destruct (C23_stem_unique (o_rename o) (Some self) (f_name f)) as (s & S & _). pose proof (C23_rule _ _ _ _ _ _ _ _ _ _ _ _ M S) as NM.
      apply take_attr_some in T as (pre & post & A & MA & F & ->). unfold map_method_or_fn in M. apply bind_ret in M as (c & _ & M). destruct (early _ _ _ _); [discriminate|].
      apply bind_ret in M as (l & _ & M). apply bind_ret in M as (rs & _ & M). apply bind_ret in M as (ret & _ & M). apply bind_ret in M as (p & _ & M). injection M as <- <- <-.
      eapply im_marked with (a := a); eauto.
      * split; [exists pre, post; cbn; rewrite <- app_assoc; auto|]. cbn. repeat (split; [reflexivity|]). apply strip_inputs.
    + intros E. injection E as <- <-. constructor. now apply take_attr_none.
  - intros E. injection E as <- <-. constructor.
Qed.

(** Items without the attribute are kept, attributed functions are instrumented, all in
    order; one module for each of them, in order; the warning exactly if there is none. *)
Theorem C24_items :
  forall cf options generics tp self items rs ms warned,
    test_fuzz_impl cf options generics tp self items = Ret (rs, ms, warned) ->
    (exists oms, Forall2 (fun i rm => item_mapped cf options self (fst i) (fst rm) (snd rm)) items (combine rs oms) /\ List.length rs = List.length oms /\
       ms = List.concat (map (fun o => match o with Some m => [m] | None => [] end) oms)) /\
    (warned = true <-> Forall (fun i => match fst i with IFn f => ~ marked f | IOther _ => True end) items).
Proof.
  intros cf options generics tp self items rs ms warned E. unfold test_fuzz_impl in E. apply bind_ret in E as ([rs' ms'] & M & E). cbn [snd] in E. injection E as E1 E2 E3; subst rs' ms'.
  unfold map_impl_items in M. apply bind_ret in M as (l & L & M). injection M as M1 M2. apply mapM_ret in L.
  assert (F : Forall2 (fun i rm => item_mapped cf options self (fst i) (fst rm) (snd rm)) items l).
  { clear -L. induction L as [|i rm items l X L IH]; constructor; [|exact IH]. destruct rm as [r m]. eapply map_impl_item_spec. exact X. }
  clear L. split.
  - exists (map snd l). subst rs ms. split; [|split; [now rewrite !map_length|now rewrite map_map]].
    replace (combine (map fst l) (map snd l)) with l; [exact F|]. clear. induction l as [|[a b] l IH]; [reflexivity|]. cbn. now rewrite <- IH.
  - subst warned ms. clear M1. induction F as [|i [r om] items l X F IH]; cbn [map List.concat]; [split; [constructor|reflexivity]|]. cbn [fst snd] in *.
    inversion X as [l0 E1 E2 E3|f N E1 E2 E3|f a f' ins m o s V O I S NM E1 E2 E3]; subst om; cbn [app].
    + rewrite IH. split; [constructor; [rewrite <- E1; exact Logic.I|assumption]|now inversion 1].
    + rewrite IH. split; [constructor; [rewrite <- E1; exact N|assumption]|now inversion 1].
    + split; [discriminate|]. intros H. inversion H as [|? ? H1 _]; subst. rewrite <- E1 in H1. destruct H1. destruct V as [(pre & post & A & MA & _) _].
      unfold marked. rewrite A. apply Exists_exists. exists a. split; [apply in_or_app; right; now left|exact MA].
Qed.
Print Assumptions C24_items.

(** Only the first [test_fuzz] attribute is taken: a second one is still there. *)
Theorem C24_second_attribute_refuted :
  exists f f' ins m ms w, let a := {| at_path := [lit "test_fuzz"]; at_args := [] |} in
    f_attrs f = [a; a] /\
    test_fuzz_impl {| cfg_fuzzing := false; cfg_cast_checks := false |} (fun _ => Ret default_mopts) [] None (rname "Foo") [(IFn f, [])] = Ret ([(IFn f', ins)], m :: ms, w) /\
    marked f'.
Proof.
  exists (example_func (lit "f") [{| at_path := [lit "test_fuzz"]; at_args := [] |}; {| at_path := [lit "test_fuzz"]; at_args := [] |}] []).
  do 5 eexists. cbv zeta. split; [reflexivity|]. split; [vm_compute; reflexivity|]. constructor. constructor; [reflexivity|constructor].
Qed.
Print Assumptions C24_second_attribute_refuted.

Example C24_example :
  let a := {| at_path := [lit "test_fuzz"; lit "test_fuzz"]; at_args := [] |} in let b := {| at_path := [lit "inline"]; at_args := [] |} in
  let cf := {| cfg_fuzzing := false; cfg_cast_checks := false |} in
  (exists r1 r2 r3 ins m, test_fuzz_impl cf (fun _ => Ret default_mopts) [] None (rname "Foo")
     [(IFn (example_func (lit "f") [b] []), []); (IFn (example_func (lit "g") [b; a; b] []), []); (IOther [tk "const"], [])] = Ret ([r1; (r2, ins); r3], [m], false) /\
   r1 = (IFn (example_func (lit "f") [b] []), []) /\ r2 = IFn (example_func (lit "g") [b; b] []) /\ r3 = (IOther [tk "const"], []) /\ md_name m = lit "Foo_g_fuzz__") /\
  test_fuzz_impl cf (fun _ => Ret default_mopts) [] None (rname "Foo") [(IOther [tk "const"], [])] = Ret ([(IOther [tk "const"], [])], [], true).
Proof. cbv zeta. split; [do 5 eexists; split; [vm_compute; reflexivity|]; repeat split|reflexivity]. Qed.

(** A function of its own keeps everything but the attributes of its parameters. *)
Theorem C24_function :
  forall cf o draws f f' ins m,
    test_fuzz cf o draws f = Ret (f', ins, m) ->
    f_attrs f' = f_attrs f ++ (if cfg_cast_checks cf then [{| at_path := [lit "test_fuzz"; lit "cast_checks"; lit "enable"]; at_args := [] |}] else []) /\
    f_vis f' = f_vis f /\ f_default f' = f_default f /\ f_name f' = f_name f /\ f_generics f' = f_generics f /\ f_output f' = f_output f /\
    f_rest f' = f_rest f /\ f_stmts f' = f_stmts f /\
    Forall2 (fun a a' => match a, a' with
                         | Receiver _ m k, Receiver 0 m' k' => m = m' /\ k = k'
                         | Typed _ p t, Typed 0 p' t' => p = p' /\ t = t'
                         | _, _ => False
                         end) (f_inputs f) (f_inputs f') /\
    ins = (if cfg_cast_checks cf then [UseCastChecks] else []) ++ [WriteInTests (negb (o_only_generic_args o))] ++ (if o_enable_in_production o then [WriteInProduction (negb (o_only_generic_args o))] else []).
Proof.
  intros cf o draws f f' ins m M. unfold test_fuzz in M. unfold map_method_or_fn in M. apply bind_ret in M as (c & _ & M). destruct (early _ _ _ _); [discriminate|].
  apply bind_ret in M as (l & _ & M). apply bind_ret in M as (rs & _ & M). apply bind_ret in M as (ret & _ & M). apply bind_ret in M as (p & _ & M). injection M as <- <- <-.
  cbn. repeat (split; [reflexivity|]). split; [apply strip_inputs|reflexivity].
Qed.
Print Assumptions C24_function.

(** ** C78 *)

Definition generic_over_types (ps : list gparam) : Prop := exists x, In (PType x) ps.
Definition generic_over_values (ps : list gparam) : Prop := exists x, In (PType x) ps \/ In (PConst x) ps.

Lemma has_type_params_spec ps : has_type_params ps = true <-> generic_over_types ps.
Proof.
  unfold has_type_params, generic_over_types. rewrite existsb_exists. split.
  - intros (p & I & E). destruct p; try discriminate. eauto.
  - intros (x & I). exists (PType x). auto.
Qed.
Lemma is_generic_spec ps : is_generic ps = true <-> generic_over_values ps.
Proof.
  unfold is_generic, generic_over_values. rewrite existsb_exists. split.
  - intros (p & I & E). destruct p; try discriminate; eauto.
  - intros (x & [I|I]); [exists (PType x)|exists (PConst x)]; auto.
Qed.
Lemma is_none_spec A (o : option A) : is_none o = true <-> o = None.
Proof. destruct o; cbn; split; congruence. Qed.

(** The harness of a target does something exactly if arguments are recorded at all and all
    type parameters are given; its auto-generation likewise, unless switched off. *)
Theorem C78_entry_exact :
  forall cf generics tp self o attrs draws f f' ins m,
    map_method_or_fn cf generics tp self o attrs draws f = Ret (f', ins, m) ->
    (md_entry m = true <-> o_only_generic_args o = false /\ (generic_over_types generics -> o_impl_generic_args o <> None) /\
                           (generic_over_types (f_generics f) -> o_generic_args o <> None)) /\
    (md_auto m = true <-> md_entry m = true /\ o_no_auto_generate o = false) /\
    (md_fields m = None <-> o_only_generic_args o = true) /\
    (md_test_only m = false <-> o_enable_in_production o = true) /\
    (forall b, In (WriteInTests b) ins <-> b = negb (o_only_generic_args o)) /\
    (forall b, In (WriteInProduction b) ins <-> o_enable_in_production o = true /\ b = negb (o_only_generic_args o)).
Proof.
  intros cf generics tp self o attrs draws f f' ins m M. unfold map_method_or_fn in M. apply bind_ret in M as (c & _ & M). destruct (early _ _ _ _); [discriminate|].
  apply bind_ret in M as (l & _ & M). apply bind_ret in M as (rs & _ & M). apply bind_ret in M as (ret & _ & M). apply bind_ret in M as (p & _ & M).
  apply ret_inj in M. apply pair_inj in M as [M Em]. apply pair_inj in M as [_ Ei]. subst ins m. cbn [md_entry md_auto md_fields md_test_only].
  split; [|split; [|split; [|split; [|split]]]].
  - rewrite negb_true_iff. unfold no_entry. rewrite !orb_false_iff, !andb_false_iff.
    rewrite <- !has_type_params_spec. destruct (has_type_params generics), (has_type_params (f_generics f)), (o_impl_generic_args o), (o_generic_args o), (o_only_generic_args o);
      cbn; intuition congruence.
  - rewrite andb_true_iff, !negb_true_iff. tauto.
  - destruct (o_only_generic_args o); split; congruence.
  - rewrite negb_false_iff. tauto.
  - intros b. destruct (cfg_cast_checks cf), (o_enable_in_production o); cbn; intuition congruence.
  - intros b. destruct (cfg_cast_checks cf), (o_enable_in_production o); cbn; intuition congruence.
Qed.
Print Assumptions C78_entry_exact.

(** In a fuzzing build a missing argument list is an error; so every target that
    is built and records arguments has a harness. *)
Theorem C78_fuzzing_build :
  forall cf generics tp self o attrs draws f f' ins m,
    cfg_fuzzing cf = true -> map_method_or_fn cf generics tp self o attrs draws f = Ret (f', ins, m) ->
    (o_only_generic_args o = false -> (generic_over_values generics -> o_impl_generic_args o <> None) /\ (generic_over_values (f_generics f) -> o_generic_args o <> None)) /\
    (md_entry m = false <-> o_only_generic_args o = true).
Proof.
  intros cf generics tp self o attrs draws f f' ins m F M. pose proof (C78_entry_exact _ _ _ _ _ _ _ _ _ _ _ M) as [X _].
  assert (Y : o_only_generic_args o = false -> (generic_over_values generics -> o_impl_generic_args o <> None) /\ (generic_over_values (f_generics f) -> o_generic_args o <> None)).
  { intros O. unfold map_method_or_fn in M. apply bind_ret in M as (c & _ & M). destruct (early cf generics o f) eqn:E; [discriminate|]. unfold early in E. rewrite F, O in E. cbn [negb andb] in E.
    rewrite orb_false_iff, !andb_false_iff in E. rewrite <- !is_generic_spec. destruct (is_generic generics), (is_generic (f_generics f)), (o_impl_generic_args o), (o_generic_args o);
      cbn in E; intuition congruence. }
  split; [exact Y|]. destruct (o_only_generic_args o) eqn:O.
  - split; [reflexivity|]. intros _. destruct (md_entry m); [|reflexivity]. destruct X as [X _]. destruct (X eq_refl) as [A _]. discriminate.
  - split; [|discriminate]. intros E. exfalso. destruct (Y eq_refl) as [Y1 Y2]. destruct X as [_ X]. rewrite X in E; [discriminate|]. split; [reflexivity|].
    split; [intros [x H]; apply Y1|intros [x H]; apply Y2]; exists x; now left.
Qed.
Print Assumptions C78_fuzzing_build.

(** The kind of build decides nothing else: unless an argument list is missing for a target that
    records arguments, a fuzzing build expands it like an ordinary build; and an ordinary build never
    objects to a missing list, that is, it accepts what a build of the same target with
    [only_generic_args] accepts. *)
Theorem C78_ordinary_build :
  forall (checks : bool) (generics : list gparam) (tp : option rpath) (self : option rty) (o : mopts) (attrs : list attr) (draws : list N) (f : func),
    let ordinary := {| cfg_fuzzing := false; cfg_cast_checks := checks |} in
    let fuzzing := {| cfg_fuzzing := true; cfg_cast_checks := checks |} in
    let only := {| o_bounds := o_bounds o; o_execute_with := o_execute_with o; o_convert := o_convert o; o_enable_in_production := o_enable_in_production o; o_generic_args := o_generic_args o; o_impl_generic_args := o_impl_generic_args o;
                   o_no_auto_generate := o_no_auto_generate o; o_only_generic_args := true; o_rename := o_rename o |} in
    (~ (o_only_generic_args o = false /\ ((generic_over_values generics /\ o_impl_generic_args o = None) \/ (generic_over_values (f_generics f) /\ o_generic_args o = None))) ->
     map_method_or_fn fuzzing generics tp self o attrs draws f = map_method_or_fn ordinary generics tp self o attrs draws f) /\
    ((exists r, map_method_or_fn ordinary generics tp self o attrs draws f = Ret r) <->
     (exists r, map_method_or_fn fuzzing generics tp self only attrs draws f = Ret r)).
Proof.
  intros checks generics tp self o attrs draws f ordinary fuzzing only. split.
  - intros H. assert (E : early fuzzing generics o f = false).
    { rewrite <- !is_generic_spec in H. unfold early. cbn [cfg_fuzzing fuzzing andb]. destruct (o_only_generic_args o), (is_generic generics), (is_generic (f_generics f)), (o_impl_generic_args o), (o_generic_args o);
        cbn [negb andb orb is_none]; try reflexivity; exfalso; apply H; auto 10. }
    unfold map_method_or_fn at 1. rewrite E. reflexivity.
  - unfold map_method_or_fn. cbn [ordinary fuzzing only early cfg_fuzzing o_only_generic_args o_convert o_generic_args o_impl_generic_args negb andb].
    change (callee generics tp self only) with (callee generics tp self o).
    destruct (make_table _ _); cbn [bind]; [|split; intros [r E]; discriminate E..].
    destruct (with_dummy_lifetimes _ _); cbn [bind]; [|split; intros [r E]; discriminate E..].
    destruct (expand_args _ _ _ _ _); cbn [bind]; [|split; intros [r E]; discriminate E..].
    match goal with |- context [bind ?x _] => destruct x end; cbn [bind]; [|split; intros [r E]; discriminate E..].
    destruct (callee _ _ _ _ _); cbn [bind]; [|split; intros [r E]; discriminate E..].
    split; intros _; eauto.
Qed.
Print Assumptions C78_ordinary_build.

(** In an ordinary build a generic target without arguments is only a silent test. *)
Example C78_example :
  let f := {| f_attrs := []; f_vis := []; f_default := false; f_name := lit "f"; f_generics := [PType (lit "T")]; f_inputs := [Typed 0 (PatIdent (lit "x") None) (rname "T")];
              f_output := None; f_rest := []; f_stmts := [] |} in
  (exists f' ins m, test_fuzz {| cfg_fuzzing := false; cfg_cast_checks := false |} default_mopts [0%N] f = Ret (f', ins, m) /\ md_entry m = false /\ md_auto m = false /\
     ins = [WriteInTests true]) /\
  test_fuzz {| cfg_fuzzing := true; cfg_cast_checks := false |} default_mopts [0%N] f = Panic.
Proof. cbv zeta. split; [do 3 eexists; split; [vm_compute; reflexivity|]; repeat split|reflexivity]. Qed.
