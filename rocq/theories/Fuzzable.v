(** The project's own sample targets (fuzzable/tests), as inputs of the macro and as user code.

    Attributes that do not concern the macro ([allow], [cfg], [derive]) and where clauses are left
    out, and so are the statements of the functions: what a body does is a function on the values
    of the arguments, where it matters. *)
From Coq Require Import List Ascii String Bool Arith NArith ZArith.
From stdpp Require Import gmap.
From Verif Require Import Base Utf8 Env Dirs Fs Write Syntax SelfTy Turbofish MacroArgs MacroMod Auto AutoTy FuzzCmd AutoGen.
From Verif Require Serde Postcard EndToEnd.
Import ListNotations.
Local Open Scope nat_scope.

(** * As inputs of the macro *)

Definition arg (x : string) (t : rty) : fn_arg := Typed 0 (PatIdent (lit x) None) t.
Definition unnamed (t : rty) : fn_arg := Typed 0 (PatOther []) t.
Definition ref (t : rty) : rty := RRef None false t.
Definition ref_mut (t : rty) : rty := RRef None true t.
Definition fn_of (attrs : list attr) (name : string) (generics : list gparam) (inputs : list fn_arg) (output : option rty) : func :=
  {| f_attrs := attrs; f_vis := []; f_default := false; f_name := lit name; f_generics := generics; f_inputs := inputs;
     f_output := output; f_rest := []; f_stmts := [] |}.
Definition free := fn_of [].
(** A method with the attribute; what its arguments are parsed to is given apart. *)
Definition attribute : attr := {| at_path := [lit "test_fuzz"; lit "test_fuzz"]; at_args := [] |}.
Definition method := fn_of [attribute].

Definition with_impl_args (l : list rty) (o : mopts) : mopts :=
  {| o_bounds := o_bounds o; o_convert := o_convert o; o_enable_in_production := o_enable_in_production o; o_execute_with := o_execute_with o;
     o_generic_args := o_generic_args o; o_impl_generic_args := Some (map GType l); o_no_auto_generate := o_no_auto_generate o;
     o_only_generic_args := o_only_generic_args o; o_rename := o_rename o |}.
Definition with_args (l : list rty) (o : mopts) : mopts :=
  {| o_bounds := o_bounds o; o_convert := o_convert o; o_enable_in_production := o_enable_in_production o; o_execute_with := o_execute_with o;
     o_generic_args := Some (map GType l); o_impl_generic_args := o_impl_generic_args o; o_no_auto_generate := o_no_auto_generate o;
     o_only_generic_args := o_only_generic_args o; o_rename := o_rename o |}.
Definition converting (from to : rty) : mopts :=
  {| o_bounds := None; o_convert := [[from; to]]; o_enable_in_production := false; o_execute_with := None; o_generic_args := None;
     o_impl_generic_args := None; o_no_auto_generate := false; o_only_generic_args := false; o_rename := None |}.

(** fuzzable/tests/assert.rs:1-4 and parallel.rs:1-19 (any of the six). *)
Definition assert_target : func := free "target" [] [arg "x" (rname "bool")] None.
(** fuzzable/tests/qwerty.rs:1-12. *)
Definition qwerty_target : func := free "target" [] [arg "data" (ref (rname "str"))] None.
(** fuzzable/tests/cast.rs:1-5. *)
Definition cast_target : func := free "target" [] [arg "x" (rname "u64")] None.
(** fuzzable/tests/calm_and_panicky.rs:14-20. *)
Definition calm_target : func := free "calm" [] [arg "_calm" (rname "Calm")] None.
Definition panicky_target : func := free "panicky" [] [arg "_panicky" (rname "Panicky")] None.
(** fuzzable/tests/auto_generate.rs:1-19. *)
Definition signed_target : func := free "target" [] [arg "x" (rname "i64")] None.
Definition unsigned_target : func := free "target" [] [arg "x" (rname "u64")] None.
(** fuzzable/tests/default.rs:1-29: the same function in both modules. *)
Definition default_target : func := free "target" [] [arg "s" (ref (rname "Struct"))] None.
(** fuzzable/tests/alloc.rs:1-6. *)
Definition alloc_opts : mopts :=
  {| o_bounds := None; o_convert := []; o_enable_in_production := false; o_execute_with := None; o_generic_args := None;
     o_impl_generic_args := None; o_no_auto_generate := true; o_only_generic_args := false; o_rename := None |}.
Definition alloc_target : func := free "target" [] [arg "n" (rname "usize")] None.
(** fuzzable/tests/rename.rs:1-2. *)
Definition rename_opts : mopts :=
  {| o_bounds := None; o_convert := []; o_enable_in_production := false; o_execute_with := None; o_generic_args := None;
     o_impl_generic_args := None; o_no_auto_generate := false; o_only_generic_args := false; o_rename := Some (lit "bar") |}.
Definition rename_target : func := free "foo" [] [] None.
(** fuzzable/tests/collision.rs:6-7. *)
Definition collision_target : func := free "test" [] [] None.
(** fuzzable/tests/unserde.rs:4-8. *)
Definition unserde_opts (production : bool) : mopts :=
  {| o_bounds := None; o_convert := []; o_enable_in_production := production; o_execute_with := None; o_generic_args := None;
     o_impl_generic_args := None; o_no_auto_generate := false; o_only_generic_args := true; o_rename := None |}.
Definition unserde_target (production : bool) : func :=
  free (if production then "target_in_production" else "target") [PType (lit "T")] [unnamed (ref (rname "T"))] None.
(** fuzzable/tests/mut_ref.rs:1-11. *)
Definition slice_target : func := free "target_slice" [] [arg "xs" (ref_mut (RSlice (rname "u8")))] None.
Definition str_target : func := free "target_str" [] [arg "s" (ref_mut (rname "str"))] None.
(** fuzzable/tests/lifetime.rs:27-30. *)
Definition lifetime_target : func :=
  free "target" [PLifetime (lit "'a")] [arg "bar" (RPath None false [(lit "Bar", AAngle false [GLifetime (lit "'a")])])] None.
(** fuzzable/tests/associated_type.rs:26-32. *)
Definition associated_opts : mopts :=
  {| o_bounds := Some [lit "T: Serializable"]; o_convert := []; o_enable_in_production := false; o_execute_with := None;
     o_generic_args := Some [GType (rname "Address")]; o_impl_generic_args := None; o_no_auto_generate := false; o_only_generic_args := false;
     o_rename := None |}.
Definition out_of (t : string) : rty := RPath None false [(lit t, ANone); (lit "Out", ANone)].
Definition associated_target : func :=
  free "serializes_to" [PType (lit "T")] [arg "x" (ref (rname "T")); arg "y" (ref (out_of "T"))] (Some (rname "bool")).
(** fuzzable/tests/serde_attr.rs:21-24: one attribute on the first parameter. *)
Definition attr_target : func :=
  free "target" [] [Typed 1 (PatIdent (lit "context") None) (rname "Context"); arg "x" (rname "i32")] None.

(** fuzzable/tests/conversion.rs:1-13, 15-27, 65-94, 96-125. *)
Definition path_target : func := free "target" [] [arg "path" (ref (rname "Path"))] None.
Definition array_target : func := free "target" [] [arg "path" (ref (RSlice (rname "String")))] None.
Definition x_of (lt : string) : rty := RPath None false [(lit "X", AAngle false [GLifetime (lit lt)])].
Definition converted_lifetime_target : func := free "target" [PLifetime (lit "'a")] [arg "x" (x_of "'a")] None.
Definition mutable_target : func := free "target" [] [arg "x" (rname "X")] None.
(** fuzzable/tests/conversion.rs:48-57: two methods of [X] with the same conversion. *)
Definition converted_self : func := method "target_self" [] [Receiver 0 false (ByRef None false)] None.
Definition converted_other : func := method "target_other" [] [arg "other" (ref (rname "X"))] None.
(** fuzzable/tests/conversion.rs:160-196. *)
Definition inapplicable : func := method "target" [] [Receiver 0 false ByValue] None.

(** fuzzable/tests/self_ty_in_mod_name.rs:6-10 and test_fuzz_impl.rs:6-13. *)
Definition self_target : func := method "target" [] [Receiver 0 false (ByRef None false)] None.
Definition foo_method : func := method "foo" [] [Receiver 0 false (ByRef None false)] None.
Definition bar_method : func := method "bar" [] [Receiver 0 false (ByRef None true)] None.

(** fuzzable/tests/from.rs:18-41. *)
Definition from_foo : func := method "from" [] [arg "foo" (rname "Foo")] (Some (rname "Self")).
Definition self_error : rty := RPath None false [(lit "Self", ANone); (lit "Error", ANone)].
Definition try_from_bar : func := method "try_from" [] [arg "bar" (rname "Bar")] (Some (rapp "Result" [rname "Self"; self_error])).
Definition into_foo : func := method "into" [] [Receiver 0 false (ByType (rname "Self"))] (Some (rname "Foo")).
Definition trait_of (t arg_ : string) : rpath := (false, [(lit t, AAngle false [GType (rname arg_)])]).

(** fuzzable/tests/return_type.rs:6-16. *)
Definition swap_of (t u : rty) : rty := rapp "Swap" [t; u].
Definition swap_method : func := method "swap" [] [Receiver 0 false ByValue] (Some (swap_of (rname "U") (rname "T"))).

(** fuzzable/tests/generic.rs:31-35, 49-78. *)
Definition qux_method : func := method "qux" [] [] None.
Definition generic_method : func := method "target" [] [Receiver 0 false (ByRef None false); arg "x" (ref (rname "T"))] None.
Definition bound_method (name : string) : func :=
  method name [PType (lit "U")] [Receiver 0 false (ByRef None false); arg "x" (ref (rname "T")); arg "y" (ref (rname "U"))] None.
Definition only_method : func :=
  method "target_only_generic_args" [PType (lit "U")] [Receiver 0 false (ByRef None false); unnamed (ref (rname "T")); unnamed (ref (rname "U"))] None.
Definition bar_args : mopts := with_impl_args [rname "Bar"] default_mopts.
Definition baz_args : mopts := with_args [rapp "Baz" [rname "Bar"]] bar_args.

(** * As user code *)

Module M := MacroArgs.
Notation vals := (list M.val).

(** Values of types that are not strings are numbers (see [MacroArgs.val]): a [bool], and any
    structure with one such field, is 0 or 1; an unsigned number is itself. *)
Definition of_bool (b : bool) : M.val := M.VOther (if b then 1 else 0).

(** The implementations of serde for the types of the fields (external, for [bool], [u64] and
    [String]; derived for the others): a unit structure is nothing, a structure with one unnamed
    field is that field, an enumeration with one variant is its number 0 and what it holds.
    [code], [uncode]: how a string inside an enumeration is represented as a number. *)
Definition stored_name (r : M.mapped_arg) : str :=
  match fst (fst (M.m_mapped r)) with RPath None false [(s, ANone)] => s | _ => [] end.
Inductive shape_kind := SkBool | SkU64 | SkString | SkEnum | SkUnit.
Definition kind_of (s : str) : shape_kind :=
  if str_eqb s (lit "bool") || str_eqb s (lit "Calm") || str_eqb s (lit "Panicky") then SkBool
  else if str_eqb s (lit "u64") then SkU64
  else if str_eqb s (lit "String") then SkString
  else if str_eqb s (lit "T") then SkEnum
  else SkUnit.
Definition sample_impls (code : str -> nat) (uncode : nat -> option str) : EndToEnd.impls := {|
  EndToEnd.i_shape := fun r =>
    match kind_of (stored_name r) with
    | SkBool => Serde.TBool | SkU64 => Serde.TUInt Serde.W64 | SkString => Serde.TString
    | SkEnum => Serde.TEnum [Serde.TString] | SkUnit => Serde.TUnit
    end;
  EndToEnd.i_to := fun r v =>
    match kind_of (stored_name r), v with
    | SkBool, M.VOther n => Serde.VBool (negb (n =? 0))
    | SkU64, M.VOther n => Serde.VUInt Serde.W64 (N.of_nat n)
    | SkString, M.VString s => Serde.VString s
    | SkEnum, M.VOther n => match uncode n with Some s => Serde.VEnum 0 (Serde.VString s) | None => Serde.VUnit end
    | _, _ => Serde.VUnit
    end;
  EndToEnd.i_from := fun r v =>
    match kind_of (stored_name r), v with
    | SkBool, Serde.VBool b => Some (of_bool b)
    | SkU64, Serde.VUInt _ n => Some (M.VOther (N.to_nat n))
    | SkString, Serde.VString s => Some (M.VString s)
    | SkEnum, Serde.VEnum 0 (Serde.VString s) => Some (M.VOther (code s))
    | SkUnit, Serde.VUnit => Some (M.VOther 0)
    | _, _ => None
    end
|}.

(** The bodies, on the arguments of a call ([None]: the function panics). *)

(** fuzzable/tests/assert.rs:3. *)
Definition assert_body (l : vals) : option unit := match l with [M.VOther n] => if n =? 0 then Some tt else None | _ => Some tt end.
(** fuzzable/tests/qwerty.rs:3-11. *)
Definition is_byte (s : bytes) (i : nat) (c : ascii) : bool := match nth_error s i with Some a => Ascii.eqb a c | None => false end.
Definition qwerty_body (l : vals) : option unit :=
  match l with
  | [M.VRef (M.VStr s)] =>
      if (List.length s =? 6) && is_byte s 0 "q" && is_byte s 1 "w" && is_byte s 2 "e" && is_byte s 3 "r" && is_byte s 4 "t" && is_byte s 5 "y"
      then None else Some tt
  | _ => Some tt
  end.
(** fuzzable/tests/cast.rs:3-5: [x as u32], which panics if the crate cast_checks (external) has
    rewritten it, that is, if the attribute has been added, and the number does not fit. *)
Definition cast_body (f : func) (l : vals) : option unit :=
  match l with
  | [M.VOther n] =>
      if existsb (fun a => match at_path a with [a1; a2; a3] => str_eqb a1 (lit "test_fuzz") && str_eqb a2 (lit "cast_checks") && str_eqb a3 (lit "enable") | _ => false end) (f_attrs f)
         && (2 ^ 32 <=? N.of_nat n)%N
      then None else Some tt
  | _ => Some tt
  end.
(** fuzzable/tests/calm_and_panicky.rs:15, 18-20. *)
Definition calm_body (l : vals) : option unit := Some tt.
Definition panicky_body (l : vals) : option unit := None.
(** fuzzable/tests/generic.rs:55-61 for [T = Bar]: the text of [x] is compared with that of
    [Bar::B("qwerty")].  [quoted]: how [Debug] writes a string. *)
Definition debug_bar (quoted : str -> str) (s : str) : str := lit "B(" ++ quoted s ++ lit ")".
Definition generic_body (uncode : nat -> option str) (quoted : str -> str) (l : vals) : option unit :=
  match l with
  | [_; M.VRef (M.VOther n)] =>
      match uncode n with
      | Some s => if str_eqb (debug_bar quoted s) (debug_bar quoted (lit "qwerty")) then None else Some tt
      | None => Some tt
      end
  | _ => Some tt
  end.

(** * Auto-generation *)

(** [bool] (core, num_traits) and a structure that only derives [Default]
    (fuzzable/tests/default.rs:18-19); a structure without (3-4). *)
Definition only_default (z : Z) : AutoTy.impls Z :=
  {| i_bounded := None; i_default := Some (Ret z); i_one := None; i_add := None; i_sub := None; i_div := None |}.
Definition nothing : AutoTy.impls Z :=
  {| i_bounded := None; i_default := None; i_one := None; i_add := None; i_sub := None; i_div := None |}.

(** A process of the test executable that selects the test [auto_generate] of the module
    (cargo-test-fuzz/src/lib.rs:1515-1526): what the test does, if there is one; a process that
    selects no test succeeds (libtest, external).  [ts]: what the types of the
    arguments implement; a panic while making the values fails the test. *)
Definition generate (md : module) (e : env) (enc : list Z -> bytes) (d : path) (ts : list (AutoTy.impls Z)) (m : fs) : fs * bool :=
  if md_auto md then match autos_of ts with Ret autos => auto_generate e enc d autos m | _ => (m, false) end
  else (m, true).

(** The recorded bytes of the single argument. *)
Definition one_field (z : bool) (field : Z -> Serde.val) (l : list Z) : bytes :=
  Postcard.serialize z false (Serde.VTuple (map field l)).
