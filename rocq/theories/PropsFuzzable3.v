(** C117: what the project's sample targets expand to. *)
From Coq Require Import List Ascii String Bool Arith NArith ZArith Lia.
From Verif Require Import Base Utf8 Decimal Syntax SelfTy Turbofish MacroArgs MacroMod Fuzzable.
Import ListNotations.
Local Open Scope nat_scope.

(** * Specification *)

(** Tokens separated by blanks; [()] is an empty group. *)
Fixpoint words_from (w : str) (s : str) : list tok :=
  let t := match w with [] => [] | _ => [if str_eqb w (lit "()") then Grp "(" [] else Tk w] end in
  match s with
  | [] => t
  | c :: s => if Ascii.eqb c " " then t ++ words_from [] s else words_from (w ++ [c]) s
  end.
Definition words (s : string) : list tok := words_from [] (lit s).

(** Where a function stands: in no impl block, or in one with these parameters, trait and type. *)
Record place := { pl_generics : list gparam; pl_trait : option rpath; pl_self : option rty }.
Definition nowhere : place := {| pl_generics := []; pl_trait := None; pl_self := None |}.
Definition of_type (t : rty) : place := {| pl_generics := []; pl_trait := None; pl_self := Some t |}.
Definition of_trait (ps : list gparam) (t : rpath) (s : rty) : place := {| pl_generics := ps; pl_trait := Some t; pl_self := Some s |}.

(** What is expected of a sample: the name of the module; the fields, if there are any, given the
    numbers drawn; the function called; the arguments of the call; the type of the result; whether
    there is something to run; and whether there is a test that generates a corpus. *)
Record expectation := {
  ex_module : string; ex_fields : option (list (str * list tok)); ex_callee : list tok; ex_args : list expr; ex_ret : list tok;
  ex_entry : bool; ex_auto : bool
}.
Definition as_expected (r : outcome (func * list inserted * module)) (x : expectation) : Prop :=
  exists f ins md, r = Ret (f, ins, md) /\
    md_name md = lit (ex_module x) /\ option_map (map (fun p => (fst p, toks (snd p)))) (md_fields md) = ex_fields x /\
    md_callee md = ex_callee x /\ md_call_args md = ex_args x /\ toks (md_ret md) = ex_ret x /\ md_entry md = ex_entry x /\ md_auto md = ex_auto x.
Definition expand (cf : config) (pl : place) (o : mopts) (draws : list N) (f : func) :=
  map_method_or_fn cf (pl_generics pl) (pl_trait pl) (pl_self pl) o [] draws f.

(** The name of a field without a name of its own: the number drawn, which has 32 bits. *)
Definition nameless (n : N) : str := lit "_" ++ dec (n mod 2 ^ 32)%N.
Definition phantom (t : string) : list tok := words "std : : marker : : PhantomData <" ++ words t ++ [tk ">"].
Definition field (x : string) : expr := EField (lit x).
Definition ordinary (name : string) (fields : list (str * list tok)) (callee : string) (args : list expr) (ret : string) : expectation :=
  {| ex_module := name; ex_fields := Some fields; ex_callee := words callee; ex_args := args; ex_ret := words ret; ex_entry := true; ex_auto := true |}.

Definition T_struct : place := of_trait [PType (lit "T")] (trait_of "Trait" "T") (rname "Struct").

(** The samples that every build accepts, and what is expected of them when the numbers drawn begin
    with [a] to [e]. *)
Definition expectations (a b c d e : N) : list (place * mopts * func * expectation) :=
  [(nowhere, default_mopts, assert_target, ordinary "target_fuzz__" [(lit "x", words "bool")] "super : : target" [field "x"] "()");
   (nowhere, default_mopts, qwerty_target, ordinary "target_fuzz__" [(lit "data", words "String")] "super : : target" [EAsStr false (field "data")] "()");
   (nowhere, rename_opts, rename_target, ordinary "bar_fuzz__" [] "super : : foo" [] "()");
   (nowhere, default_mopts, collision_target, ordinary "test_fuzz__" [] "super : : test" [] "()");
   (nowhere, alloc_opts, alloc_target,
    {| ex_module := "target_fuzz__"; ex_fields := Some [(lit "n", words "usize")]; ex_callee := words "super : : target"; ex_args := [field "n"];
       ex_ret := words "()"; ex_entry := true; ex_auto := false |});
   (nowhere, unserde_opts false, unserde_target false,
    {| ex_module := "target_fuzz__"; ex_fields := None; ex_callee := words "super : : target"; ex_args := [ERef false (EField (nameless b))];
       ex_ret := words "()"; ex_entry := false; ex_auto := false |});
   (nowhere, default_mopts, slice_target, ordinary "target_slice_fuzz__" [(lit "xs", words "Vec < u8 >")] "super : : target_slice" [EAsSlice true (field "xs")] "()");
   (nowhere, default_mopts, str_target, ordinary "target_str_fuzz__" [(lit "s", words "String")] "super : : target_str" [EAsStr true (field "s")] "()");
   (nowhere, default_mopts, lifetime_target,
    ordinary "target_fuzz__" [(lit "bar", words "Bar < 'a >"); (nameless a, phantom "& 'a ()")] "super : : target" [field "bar"] "()");
   (nowhere, associated_opts, associated_target,
    ordinary "serializes_to_fuzz__" [(lit "x", words "T"); (lit "y", words "T : : Out"); (nameless a, phantom "T")] "super : : serializes_to : : < Address >"
      [ERef false (field "x"); ERef false (field "y")] "bool");
   (nowhere, default_mopts, attr_target,
    ordinary "target_fuzz__" [(lit "context", words "Context"); (lit "x", words "i32")] "super : : target" [field "context"; field "x"] "()");
   (nowhere, converting (ref (rname "Path")) (rname "LeakedPath"), path_target,
    ordinary "target_fuzz__" [(lit "path", words "LeakedPath")] "super : : target" [EInto (field "path")] "()");
   (nowhere, converting (ref (RSlice (rname "String"))) (rname "LeakedArray"), array_target,
    ordinary "target_fuzz__" [(lit "path", words "LeakedArray")] "super : : target" [EInto (field "path")] "()");
   (nowhere, converting (x_of "'a") (rname "Y"), converted_lifetime_target,
    ordinary "target_fuzz__" [(lit "x", words "Y"); (nameless a, phantom "& 'a ()")] "super : : target" [EInto (field "x")] "()");
   (nowhere, converting (rname "X") (rname "Y"), mutable_target,
    ordinary "target_fuzz__" [(lit "x", words "Y")] "super : : target" [EInto (field "x")] "()");
   (of_type (rname "X"), converting (ref (rname "X")) (rname "Y"), converted_self,
    ordinary "X_target_self_fuzz__" [(nameless a, words "Y")] "X : : target_self" [EInto (EField (nameless a))] "()");
   (of_type (rname "X"), converting (ref (rname "X")) (rname "Y"), converted_other,
    ordinary "X_target_other_fuzz__" [(lit "other", words "Y")] "X : : target_other" [EInto (field "other")] "()");
   (of_type (rname "Struct"), default_mopts, self_target,
    ordinary "Struct_target_fuzz__" [(nameless a, words "Struct")] "Struct : : target" [ERef false (EField (nameless a))] "()");
   (of_type (rname "Struct"), default_mopts, foo_method,
    ordinary "Struct_foo_fuzz__" [(nameless a, words "Struct")] "Struct : : foo" [ERef false (EField (nameless a))] "()");
   (of_type (rname "Struct"), default_mopts, bar_method,
    ordinary "Struct_bar_fuzz__" [(nameless a, words "Struct")] "Struct : : bar" [ERef true (EField (nameless a))] "()");
   (of_trait [] (trait_of "From" "Foo") (rname "Bar"), default_mopts, from_foo,
    ordinary "Bar_from_fuzz__" [(lit "foo", words "Foo")] "< Bar as From : : < Foo > > : : from" [field "foo"] "Bar");
   (of_trait [] (trait_of "TryFrom" "Bar") (rname "Baz"), default_mopts, try_from_bar,
    ordinary "Baz_try_from_fuzz__" [(lit "bar", words "Bar")] "< Baz as TryFrom : : < Bar > > : : try_from" [field "bar"]
      "Result < Baz , < Baz as TryFrom < Bar > > : : Error >");
   (of_trait [] (trait_of "Into" "Foo") (rname "Baz"), default_mopts, into_foo,
    ordinary "Baz_into_fuzz__" [(nameless a, words "Baz")] "< Baz as Into : : < Foo > > : : into" [EField (nameless a)] "Foo");
   ({| pl_generics := [PType (lit "T"); PType (lit "U")]; pl_trait := None; pl_self := Some (swap_of (rname "T") (rname "U")) |},
    with_impl_args [RTuple []; rname "bool"] default_mopts, swap_method,
    ordinary "Swap_swap_fuzz__" [(nameless c, words "Swap < T , U >"); (nameless a, phantom "T"); (nameless b, phantom "U")]
      "Swap : : < () , bool > : : swap" [EField (nameless c)] "Swap < U , T >");
   (of_trait [PType (lit "T")] (false, [(lit "BazTrait", ANone)]) (rapp "Baz" [rname "T"]), bar_args, qux_method,
    ordinary "Baz_qux_fuzz__" [(nameless a, phantom "T")] "< Baz : : < Bar > as BazTrait > : : qux" [] "()");
   (T_struct, bar_args, generic_method,
    ordinary "Struct_target_fuzz__" [(nameless b, words "Struct"); (lit "x", words "T"); (nameless a, phantom "T")] "< Struct as Trait : : < Bar > > : : target"
      [ERef false (EField (nameless b)); ERef false (field "x")] "()");
   (T_struct, baz_args, bound_method "target_bound",
    ordinary "Struct_target_bound_fuzz__"
      [(nameless c, words "Struct"); (lit "x", words "T"); (lit "y", words "U"); (nameless a, phantom "T"); (nameless b, phantom "U")]
      "< Struct as Trait : : < Bar > > : : target_bound : : < Baz < Bar > >" [ERef false (EField (nameless c)); ERef false (field "x"); ERef false (field "y")] "()");
   (T_struct, unserde_opts false, only_method,
    {| ex_module := "Struct_target_only_generic_args_fuzz__"; ex_fields := None; ex_callee := words "< Struct as Trait : : < T > > : : target_only_generic_args";
       ex_args := [ERef false (EField (nameless c)); ERef false (EField (nameless d)); ERef false (EField (nameless e))];
       ex_ret := words "()"; ex_entry := false; ex_auto := false |})].

(** * Proofs *)

Ltac sample := match goal with H : (_, _, _, _) = (_, _, _, _) |- _ => injection H as <- <- <- <- end;
  do 3 eexists; (split; [reflexivity|]); repeat split; reflexivity.

(** C117: every build expands the samples as expected, whatever numbers are drawn. *)
Theorem C117_expansions :
  forall (cf : config) (a b c d e : N) (draws : list N) (pl : place) (o : mopts) (f : func) (x : expectation),
    In (pl, o, f, x) (expectations a b c d e) -> as_expected (expand cf pl o (a :: b :: c :: d :: e :: draws) f) x.
Proof.
  intros [[|] [|]] a b c d e draws pl o f x I; unfold expectations in I; repeat (destruct I as [I|I]; [sample|]); destruct I.
Qed.
Print Assumptions C117_expansions.

(** C117: the sample with a conversion for a type that no argument has is refused by every build. *)
Theorem C117_inapplicable :
  forall (cf : config) (draws : list N), expand cf (of_type (rname "X")) (converting (rname "Y") (rname "Z")) draws inapplicable = Panic.
Proof. intros [[|] [|]] [|n draws]; reflexivity. Qed.
Print Assumptions C117_inapplicable.

(** C117: the implementation of [TryFrom] of the sample [from]: its type [Error] is copied, and the
    method called is the one of the trait. *)
Theorem C117_impl_trait :
  forall (cf : config) (l1 l2 : list N) (error : list tok),
    exists f ins md,
      test_fuzz_impl cf (fun _ => Ret default_mopts) [] (Some (trait_of "TryFrom" "Bar")) (rname "Baz") [(IOther error, l1); (IFn try_from_bar, l2)] =
        Ret ([(IOther error, []); (IFn f, ins)], [md], false) /\
      md_name md = lit "Baz_try_from_fuzz__" /\ md_callee md = words "< Baz as TryFrom : : < Bar > > : : try_from" /\
      toks (md_ret md) = words "Result < Baz , < Baz as TryFrom < Bar > > : : Error >".
Proof. intros [[|] [|]] l1 l2 error; do 3 eexists; (split; [reflexivity|]); repeat split; reflexivity. Qed.
Print Assumptions C117_impl_trait.

(** C117: the impl block of the sample [test_fuzz_impl] becomes the same block, without the
    attributes, and one module for each of the two methods; nothing is reported.  A block without
    such methods is left as it is and reported. *)
Theorem C117_impl :
  forall (cf : config) (l1 l2 : list N) (others : list (list tok)),
    (exists f1 ins1 md1 f2 ins2 md2,
       test_fuzz_impl cf (fun _ => Ret default_mopts) [] None (rname "Struct") [(IFn foo_method, l1); (IFn bar_method, l2)] =
         Ret ([(IFn f1, ins1); (IFn f2, ins2)], [md1; md2], false) /\
       (forall at_, In at_ (f_attrs f1 ++ f_attrs f2) -> at_path at_ = [lit "test_fuzz"; lit "cast_checks"; lit "enable"]) /\
       f_name f1 = lit "foo" /\ f_inputs f1 = f_inputs foo_method /\ f_name f2 = lit "bar" /\ f_inputs f2 = f_inputs bar_method /\
       md_name md1 = lit "Struct_foo_fuzz__" /\ md_name md2 = lit "Struct_bar_fuzz__") /\
    test_fuzz_impl cf (fun _ => Ret default_mopts) [] None (rname "Struct") (map (fun t => (IOther t, l1)) others) =
      Ret (map (fun t => (IOther t, [])) others, [], true).
Proof.
  intros cf l1 l2 others. split.
  - destruct cf as [[|] [|]], l1 as [|n1 l1], l2 as [|n2 l2]; do 6 eexists; (split; [reflexivity|]); (split; [intros at_ I; cbn in I; intuition (subst; reflexivity)|]); repeat split; reflexivity.
  - unfold test_fuzz_impl, map_impl_items.
    assert (E : mapM (fun p => map_impl_item cf (fun _ => Ret default_mopts) [] None (rname "Struct") (snd p) (fst p)) (map (fun t => (IOther t, l1)) others)
              = Ret (map (fun t => ((IOther t, []), None)) others)) by (induction others as [|t others IH]; [reflexivity|]; cbn [map mapM fst snd map_impl_item bind]; rewrite IH; reflexivity).
    rewrite E. cbn [bind]. rewrite !map_map. cbn [fst snd].
    assert (N : List.concat (map (fun _ : list tok => @nil module) others) = []) by (clear E; induction others as [|t l IH]; [reflexivity|exact IH]).
    rewrite N. reflexivity.
Qed.
Print Assumptions C117_impl.

(** The sample [from] in a build with cast checks: the type of the result names the trait. *)
Example C117_example :
  In (of_trait [] (trait_of "TryFrom" "Bar") (rname "Baz"), default_mopts, try_from_bar,
      ordinary "Baz_try_from_fuzz__" [(lit "bar", words "Bar")] "< Baz as TryFrom : : < Bar > > : : try_from" [field "bar"]
        "Result < Baz , < Baz as TryFrom < Bar > > : : Error >") (expectations 1 2 3 4 5) /\
  words "< () , 'a >" = [tk "<"; Grp "(" []; tk ","; tk "'a"; tk ">"] /\ nameless 7 = lit "_7" /\
  (forall cf draws, expand cf (of_type (rname "X")) (converting (rname "X") (rname "Z")) draws inapplicable <> Panic).
Proof. split; [cbn; tauto|]. split; [reflexivity|]. split; [reflexivity|]. intros [[|] [|]] [|n draws]; discriminate. Qed.
