(** The generic parameters of the generated items, with their bounds, and the arguments the
    harness gives for them. *)
From Coq Require Import List Ascii String Bool Arith NArith Lia.
From Verif Require Import Base Syntax SelfTy.
Import ListNotations.
Local Open Scope nat_scope.

(** syn [Generics]: parameters with their bounds, and the predicates of the where clause.
    Bounds and predicates are texts.  Simplification: no default types, no default values. *)
Record gen := { gn_params : list (gparam * list str); gn_where : option (list str) }.

(** macro/src/lib.rs:1064-1076 [combine_generics]. *)
Definition combine_gen (l r : gen) : gen :=
  {| gn_params := gn_params l ++ gn_params r; gn_where := combine_options (gn_where l) (gn_where r) (@app _) |}.

(** macro/src/lib.rs:1095-1105 [restrict_to_deserialize]. *)
Definition deserialize_owned : str := lit "serde::de::DeserializeOwned".
Definition restrict_gen (g : gen) : gen :=
  {| gn_params := map (fun '(p, bs) => match p with PType _ => (p, bs ++ [deserialize_owned]) | _ => (p, bs) end) (gn_params g);
     gn_where := gn_where g |}.

(** macro/src/lib.rs:1050-1062 [type_idents]. *)
Definition type_idents (g : gen) : list str :=
  List.concat (map (fun '(p, _) => match p with PType x => [x] | _ => [] end) (gn_params g)).

(** syn [Generics::split_for_impl] (external): all lifetimes come first. *)
Definition lifetimes_first (l : list (gparam * list str)) : list (gparam * list str) :=
  filter (fun x => is_lt_param (fst x)) l ++ filter (fun x => negb (is_lt_param (fst x))) l.

(** What a generated item declares: its parameters with bounds, and its predicates. *)
Record item := { it_params : list (gparam * list str); it_where : list str }.
Definition or_none (o : option (list str)) : list str := match o with Some l => l | None => [] end.

(** macro/src/lib.rs:334-349, 478-492, 657-709, 729: [write_args], the implementations of [Debug] and
    [HasRetTy] and the one with [entry]; [read_args]; the structures [Args].  The
    parameters of [Args] are names only (see Hygiene.v for constants).  [bounds]: the
    predicates of the option. *)
Definition generic_item (impl fn : gen) : item :=
  let g := combine_gen impl fn in {| it_params := lifetimes_first (gn_params g); it_where := or_none (gn_where g) |}.
Definition read_item_generics (impl fn : gen) : item :=
  let g := combine_gen impl fn in {| it_params := lifetimes_first (gn_params (restrict_gen g)); it_where := or_none (gn_where g) |}.
Definition struct_item (impl fn : gen) (bounds : option (list str)) : item :=
  {| it_params := map (fun x => (fst x, [])) (lifetimes_first (gn_params (combine_gen impl fn))); it_where := or_none bounds |}.

(** macro/src/lib.rs:321-333, 494-501: the arrays of the type names that are recorded. *)
Definition recorded_types (impl fn : gen) : list str * list str := (type_idents impl, type_idents fn).

(** macro/src/lib.rs:370-396: the arguments given to [Args] and [read_args], and those used
    for the type of the result; none where nothing is written. *)
Definition harness_args (ia fa : option (list (garg rty))) : option (list (garg rty)) := combine_options ia fa (@app _).
Definition result_args (params : list gparam) (ia fa : option (list (garg rty))) : outcome (list (garg rty)) :=
  with_dummy_lifetimes params match harness_args ia fa with Some l => l | None => [] end.
