(** The options of the [test_fuzz] attribute. *)
From Coq Require Import List Ascii String Bool Arith NArith Lia.
From Verif Require Import Base Syntax SelfTy MacroArgs MacroMod.
Import ListNotations.

(** The value in [name = value].  Simplification: only literals are represented; any other
    expression is rejected like a literal of another kind. *)
Inductive mvalue := LStr (s : str) | LBool (b : bool) | LOther.

(** darling [NestedMeta], syn [Meta]: an item of the attribute's arguments, with its path as
    text; [MList]: [name(...)]. *)
Inductive meta := MWord (name : str) | MValue (name : str) (v : mvalue) | MList (name : str) | MLit.

(** The types of the fields: [Option<String>], [bool], [Option<Ident>]. *)
Inductive kind := KString | KBool | KIdent.
Inductive field_value := FText (s : str) | FFlag (b : bool).

(** macro/src/lib.rs:175-197 [TestFuzzOpts], the fields that may be given once. *)
Definition fields : list (str * kind) :=
  [(lit "bounds", KString); (lit "enable_in_production", KBool); (lit "execute_with", KString); (lit "generic_args", KString);
   (lit "impl_generic_args", KString); (lit "no_auto_generate", KBool); (lit "only_generic_args", KBool); (lit "rename", KIdent)].

Section Read.
  (** Whether a text is an identifier (syn). *)
  Context (is_ident : str -> bool).

  (** darling [FromMeta::from_meta] for these types (external): a string wants a string
      literal; a flag is set by its name alone, or by a boolean, possibly quoted. *)
  Definition from_meta (k : kind) (m : meta) : option field_value :=
    match k, m with
    | KString, MValue _ (LStr s) => Some (FText s)
    | KIdent, MValue _ (LStr s) => if is_ident s then Some (FText s) else None
    | KBool, MWord _ => Some (FFlag true)
    | KBool, MValue _ (LBool b) => Some (FFlag b)
    | KBool, MValue _ (LStr s) =>
        if str_eqb s (lit "true") then Some (FFlag true) else if str_eqb s (lit "false") then Some (FFlag false) else None
    | _, _ => None
    end.

  Definition meta_name (m : meta) : option str :=
    match m with MWord n | MValue n _ | MList n => Some n | MLit => None end.

  (** The variables of the generated [from_list] (darling, external): the fields seen so far
      with their values, the [convert] options, the number of errors. *)
  Record rstate := { r_seen : list (str * option field_value); r_convert : list str; r_errors : nat }.
  Definition find_field {A} (n : str) (l : list (str * A)) : option A := option_map snd (List.find (fun p => str_eqb (fst p) n) l).

  Definition read_item (st : rstate) (m : meta) : rstate :=
    let error := {| r_seen := r_seen st; r_convert := r_convert st; r_errors := S (r_errors st) |} in
    match meta_name m with
    | None => error
    | Some n =>
        if str_eqb n (lit "convert") then
          match from_meta KString m with
          | Some (FText s) => {| r_seen := r_seen st; r_convert := r_convert st ++ [s]; r_errors := r_errors st |}
          | _ => error
          end
        else
          match find_field n fields with
          | None => error
          | Some k =>
              match find_field n (r_seen st) with
              | Some _ => error
              | None =>
                  match from_meta k m with
                  | Some v => {| r_seen := (n, Some v) :: r_seen st; r_convert := r_convert st; r_errors := r_errors st |}
                  | None => {| r_seen := (n, None) :: r_seen st; r_convert := r_convert st; r_errors := S (r_errors st) |}
                  end
              end
          end
    end.

  (** macro/src/lib.rs:175-197 [TestFuzzOpts], as read. *)
  Record topts := {
    t_bounds : option str; t_convert : list str; t_enable_in_production : bool; t_execute_with : option str;
    t_generic_args : option str; t_impl_generic_args : option str; t_no_auto_generate : bool; t_only_generic_args : bool;
    t_rename : option str
  }.
  Definition default_topts : topts :=
    {| t_bounds := None; t_convert := []; t_enable_in_production := false; t_execute_with := None; t_generic_args := None;
       t_impl_generic_args := None; t_no_auto_generate := false; t_only_generic_args := false; t_rename := None |}.

  Definition text_field (st : rstate) (n : str) : option str :=
    match find_field n (r_seen st) with Some (Some (FText s)) => Some s | _ => None end.
  Definition flag_field (st : rstate) (n : str) : bool :=
    match find_field n (r_seen st) with Some (Some (FFlag b)) => b | _ => false end.

  (** macro/src/lib.rs:203, 1017-1018 [TestFuzzOpts::from_list(..).expect(..)]. *)
  Definition from_list (l : list meta) : outcome topts :=
    let st := fold_left read_item l {| r_seen := []; r_convert := []; r_errors := 0 |} in
    match r_errors st with
    | 0 => Ret {| t_bounds := text_field st (lit "bounds"); t_convert := r_convert st;
                  t_enable_in_production := flag_field st (lit "enable_in_production");
                  t_execute_with := text_field st (lit "execute_with"); t_generic_args := text_field st (lit "generic_args");
                  t_impl_generic_args := text_field st (lit "impl_generic_args");
                  t_no_auto_generate := flag_field st (lit "no_auto_generate");
                  t_only_generic_args := flag_field st (lit "only_generic_args"); t_rename := text_field st (lit "rename") |}
    | S _ => Panic
    end.

  (** An attribute as written: [#[test_fuzz]], [#[test_fuzz(...)]], [#[test_fuzz = ...]]. *)
  Inductive form := FPath | FList (l : list meta) | FNameValue.

  (** macro/src/lib.rs:199-203: on a function; the third form is rejected by the compiler. *)
  Definition opts_of_function (f : form) : outcome topts :=
    match f with FPath => from_list [] | FList l => from_list l | FNameValue => Panic end.

  (** macro/src/lib.rs:1012-1022 [opts_from_attr]: on a method; [parse_args] fails unless
      there is an argument list. *)
  Definition opts_from_attr (f : form) : outcome topts :=
    match f with FList l => from_list l | _ => Ret default_topts end.
End Read.

(** macro/src/lib.rs:272-283, 285-290, 340-350, 602-603, 1031-1038: the texts as types, generic
    arguments, predicates and expressions; failing to parse them is a panic.  [types], [args],
    [preds] and [expr_] are the parsers (syn). *)
Definition parsed (preds : str -> outcome (list str)) (expr_ : str -> outcome (list tok)) (types : str -> outcome (list rty)) (args : str -> outcome (list (garg rty))) (t : topts) : outcome mopts :=
  let opt {A} (p : str -> outcome A) (o : option str) := match o with Some s => bind (p s) (fun l => Ret (Some l)) | None => Ret None end in
  bind (mapM types (t_convert t)) (fun cs =>
  bind (opt args (t_impl_generic_args t)) (fun ia =>
  bind (opt args (t_generic_args t)) (fun a =>
  bind (opt preds (t_bounds t)) (fun bs =>
  bind (opt expr_ (t_execute_with t)) (fun ew =>
  Ret {| o_bounds := bs; o_execute_with := ew; o_convert := cs; o_enable_in_production := t_enable_in_production t; o_generic_args := a; o_impl_generic_args := ia;
         o_no_auto_generate := t_no_auto_generate t; o_only_generic_args := t_only_generic_args t; o_rename := t_rename t |}))))).
