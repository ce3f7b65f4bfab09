(** Expanding a function and an impl block: module, instrumented function, and what the
    module contains (macro/src/lib.rs:50-173, 238-808, 1012-1029, 1169-1182,
    macro/src/type_utils.rs:174-183). *)
From Coq Require Import List Ascii String Bool Arith NArith Lia.
From Verif Require Import Base Syntax SelfTy Turbofish MacroArgs.
Import ListNotations.
Local Open Scope nat_scope.

(** macro/src/lib.rs:175-197 [TestFuzzOpts]; the strings already parsed: predicates are texts
    and an expression is its tokens. *)
Record mopts := {
  o_bounds : option (list str);
  o_convert : list (list rty);
  o_enable_in_production : bool;
  o_execute_with : option (list tok);
  o_generic_args : option (list (garg rty));
  o_impl_generic_args : option (list (garg rty));
  o_no_auto_generate : bool;
  o_only_generic_args : bool;
  o_rename : option str
}.
Definition default_mopts : mopts :=
  {| o_bounds := None; o_convert := []; o_enable_in_production := false; o_execute_with := None; o_generic_args := None; o_impl_generic_args := None;
     o_no_auto_generate := false; o_only_generic_args := false; o_rename := None |}.

(** An attribute: the identifiers of its path, its arguments. *)
Record attr := { at_path : list str; at_args : list tok }.

(** A function: attributes, visibility, [default], name, generic parameters, parameters,
    return type, statements.  [asyncness], [unsafety], where clauses and the like are part
    of [f_rest], which is copied. *)
Record func := {
  f_attrs : list attr; f_vis : list tok; f_default : bool; f_name : str; f_generics : list gparam;
  f_inputs : list fn_arg; f_output : option rty; f_rest : list tok; f_stmts : list (list tok)
}.

(** What is inserted before the statements of an instrumented function
    (macro/src/lib.rs:309-318, 494-538, 780-790); the [bool]: are arguments written too? *)
Inductive inserted := UseCastChecks | WriteInTests (args : bool) | WriteInProduction (args : bool).

(** The generated module: name, whether it exists in tests only, fields of [Args] (none at
    all with [only_generic_args]), the path and the arguments of the call, the
    function it is handed to in a closure, the predicates of the structures for serde, whether [entry]
    has a body and whether there is an [auto_generate] test. *)
Record module := {
  md_name : str; md_test_only : bool; md_fields : option (list (str * rty)); md_callee : list tok; md_call_args : list expr;
  md_execute_with : option (list tok); md_bounds : option (list str); md_ret : rty; md_entry : bool; md_auto : bool
}.

(** macro/src/type_utils.rs:174-183 [type_base]. *)
Definition type_base (t : rty) : option str :=
  match t with
  | RPath _ _ segs => match rev segs with s :: _ => Some (fst s) | [] => None end
  | _ => None
  end.

(** macro/src/lib.rs:1169-1182 [mod_ident]. *)
Definition mod_ident (rename : option str) (base : option str) (target : str) : str :=
  match rename with
  | Some name => name
  | None => match base with Some b => b ++ lit "_" | None => [] end ++ target
  end ++ lit "_fuzz__".

(** macro/src/lib.rs:1040-1048 [is_generic]. *)
Definition is_generic (ps : list gparam) : bool := existsb (fun p => negb (is_lt_param p)) ps.

(** The build: compiled with [cfg(fuzzing)], with feature [__cast_checks]. *)
Record config := { cfg_fuzzing : bool; cfg_cast_checks : bool }.

Definition strip_attrs (a : fn_arg) : fn_arg :=
  match a with Receiver _ m k => Receiver 0 m k | Typed _ p t => Typed 0 p t end.
Definition is_none {A} (o : option A) : bool := match o with None => true | Some _ => false end.
Definition has_type_params (ps : list gparam) : bool := existsb is_type_param ps.
Definition or_empty {A} (o : option (list A)) : list A := match o with Some l => l | None => [] end.

(** macro/src/lib.rs:290-307: the early errors of a fuzzing build. *)
Definition early (cf : config) (generics : list gparam) (o : mopts) (f : func) : bool :=
  cfg_fuzzing cf && negb (o_only_generic_args o) &&
  ((is_generic generics && is_none (o_impl_generic_args o)) || (is_generic (f_generics f) && is_none (o_generic_args o))).

(** macro/src/lib.rs:715-718: no generic arguments for a generic target. *)
Definition no_entry (generics : list gparam) (o : mopts) (f : func) : bool :=
  o_only_generic_args o || (has_type_params generics && is_none (o_impl_generic_args o)) || (has_type_params (f_generics f) && is_none (o_generic_args o)).

(** [::<args>] (macro/src/lib.rs:1125-1129 [args_as_turbofish]). *)
Definition args_toks (l : list (garg rty)) : list tok := atoks toks (AAngle true l).

(** macro/src/type_utils.rs:10-15 [map_path_generic_params]: the arguments of the segments
    are visited, not the path itself. *)
Definition map_path_generic_params (m : list (str * garg rty)) (p : rpath) : outcome rpath :=
  if sany (subst_rejects m) (snd p) then Panic else Ret (fst p, smap (subst m) (snd p)).

(** macro/src/lib.rs:575-609: the function that is called. *)
Definition callee (generics : list gparam) (tp : option rpath) (self : option rty) (o : mopts) (name : str) : outcome (list tok) :=
  let fn_args := match o_generic_args o with Some l => args_toks l | None => [] end in
  match self with
  | Some self =>
      bind (generic_params_map generics (or_empty (o_impl_generic_args o))) (fun m =>
      bind (map_type_generic_params m self) (fun self' =>
      let self_toks := type_as_turbofish self' in
      bind (match tp with
            | Some p => bind (map_path_generic_params m p) (fun p' => Ret (tk "<" :: self_toks ++ tk "as" :: path_as_turbofish p' ++ [tk ">"]))
            | None => Ret self_toks
            end) (fun q =>
      Ret (q ++ colon2 ++ Tk name :: fn_args))))
  | None => Ret (tk "super" :: colon2 ++ Tk name :: fn_args)
  end.

(** macro/src/lib.rs:308-319: what feature [__cast_checks] adds. *)
Definition cast_checks_attr : attr := {| at_path := [lit "test_fuzz"; lit "cast_checks"; lit "enable"]; at_args := [] |}.

(** The type of a phantom field (macro/src/lib.rs:1107-1123). *)
Definition phantom_type (p : gparam) : rty :=
  let phantom t := RPath None false [(lit "std", ANone); (lit "marker", ANone); (lit "PhantomData", AAngle false [GType t])] in
  match p with
  | PType x => phantom (RPath None false [(x, ANone)])
  | PLifetime a => phantom (RRef (Some a) false (RTuple []))
  | PConst _ => RTuple []
  end.
Definition phantom_params (ps : list gparam) : list gparam := List.filter (fun p => match p with PConst _ => false | _ => true end) ps.

(** macro/src/lib.rs:238-808 [map_method_or_fn] for a function whose attributes are [attrs]
    once the [test_fuzz] attribute is removed.  [draws] are the values of the name counter
    seen by this expansion.  Messages of panics are not modelled. *)
Definition map_method_or_fn (cf : config) (generics : list gparam) (tp : option rpath) (self : option rty) (o : mopts) (attrs : list attr) (draws : list N) (f : func)
  : outcome (func * list inserted * module) :=
  bind (make_table (o_convert o) []) (fun _ =>
  if early cf generics o f then Panic
  else
    let combined := combine_generics generics (f_generics f) in
    bind (with_dummy_lifetimes combined (or_empty (combine_options (o_impl_generic_args o) (o_generic_args o) (@app _)))) (fun _ =>
    let n := phantom_count combined in
    bind (expand_args tp self (o_convert o) (skipn n draws) (f_inputs f)) (fun rs =>
    bind (match f_output f with
          | Some t => match self with Some self => expand_self tp self t | None => Ret t end
          | None => Ret (RTuple [])
          end) (fun ret =>
    bind (callee generics tp self o (f_name f)) (fun path =>
    let only := o_only_generic_args o in
    let entry := negb (no_entry generics o f) in
    Ret ({| f_attrs := attrs ++ (if cfg_cast_checks cf then [cast_checks_attr] else []); f_vis := f_vis f; f_default := f_default f; f_name := f_name f;
            f_generics := f_generics f; f_inputs := map strip_attrs (f_inputs f); f_output := f_output f; f_rest := f_rest f; f_stmts := f_stmts f |},
         (if cfg_cast_checks cf then [UseCastChecks] else []) ++ [WriteInTests (negb only)] ++ (if o_enable_in_production o then [WriteInProduction (negb only)] else []),
         {| md_name := mod_ident (o_rename o) (match self with Some t => type_base t | None => None end) (f_name f);
            md_test_only := negb (o_enable_in_production o);
            md_fields := if only then None
                         else Some (map (fun r => (m_ident r, fst (fst (m_mapped r)))) rs ++ combine (map anonymous (firstn n draws)) (map phantom_type (phantom_params combined)));
            md_callee := path; md_call_args := map (fun r => snd (m_mapped r)) rs; md_execute_with := o_execute_with o; md_bounds := o_bounds o; md_ret := ret;
            md_entry := entry; md_auto := entry && negb (o_no_auto_generate o) |})))))).

(** ** Impl blocks *)

(** An item of an impl block; items that are no functions are copied. *)
Inductive item := IFn (f : func) | IOther (l : list tok).

(** macro/src/lib.rs:1024-1029 [is_test_fuzz]. *)
Definition is_test_fuzz (a : attr) : bool := forallb (fun s => str_eqb s (lit "test_fuzz")) (at_path a).

(** [position] and [remove] of the first such attribute. *)
Fixpoint take_attr (l : list attr) : option (attr * list attr) :=
  match l with
  | [] => None
  | a :: l => if is_test_fuzz a then Some (a, l) else option_map (fun p => (fst p, a :: snd p)) (take_attr l)
  end.

(** A mapped item: an instrumented function keeps what was inserted apart. *)
Definition mapped_item := (item * list inserted)%type.

(** macro/src/lib.rs:118-173 [map_impl_item], [map_impl_item_fn]; [options] parses the
    arguments of the attribute (1012-1022). *)
Definition map_impl_item (cf : config) (options : attr -> outcome mopts) (generics : list gparam) (tp : option rpath) (self : rty) (draws : list N) (i : item)
  : outcome (mapped_item * option module) :=
  match i with
  | IOther l => Ret ((IOther l, []), None)
  | IFn f =>
      match take_attr (f_attrs f) with
      | None => Ret ((IFn f, []), None)
      | Some (a, attrs) =>
          bind (options a) (fun o =>
          bind (map_method_or_fn cf generics tp (Some self) o attrs draws f) (fun r =>
          let '(f', ins, m) := r in Ret ((IFn f', ins), Some m)))
      end
  end.

(** macro/src/lib.rs:101-116 [map_impl_items]; each item with the counter values its
    expansion sees. *)
Definition map_impl_items (cf : config) (options : attr -> outcome mopts) (generics : list gparam) (tp : option rpath) (self : rty) (items : list (item * list N))
  : outcome (list mapped_item * list module) :=
  bind (mapM (fun p => map_impl_item cf options generics tp self (snd p) (fst p)) items) (fun rs =>
  Ret (map fst rs, List.concat (map (fun r => match snd r with Some m => [m] | None => [] end) rs))).

(** macro/src/lib.rs:53-99 [test_fuzz_impl]: items, modules, and whether the warning is printed. *)
Definition test_fuzz_impl (cf : config) (options : attr -> outcome mopts) (generics : list gparam) (tp : option rpath) (self : rty) (items : list (item * list N))
  : outcome (list mapped_item * list module * bool) :=
  bind (map_impl_items cf options generics tp self items) (fun r =>
  Ret (r, match snd r with [] => true | _ => false end)).

(** macro/src/lib.rs:199-228 [test_fuzz]: a free function. *)
Definition test_fuzz (cf : config) (o : mopts) (draws : list N) (f : func) : outcome (func * list inserted * module) :=
  map_method_or_fn cf [] None None o (f_attrs f) draws f.
