(** Auto-generated values of a type, by the traits it implements. *)
From Coq Require Import String List Ascii Bool Arith NArith ZArith Lia.
From Verif Require Import Base Auto.
Import ListNotations.

(** What a type implements of the traits [auto!] asks for, with the operations (any of which
    may panic).  [Add], [Sub], [Div] are those with [Output = Self]
    (runtime/src/traits.rs:10, 23, 36, 50). *)
Record impls (V : Type) := {
  i_bounded : option (outcome V * outcome V);  (* num_traits::Bounded: min_value, max_value *)
  i_default : option (outcome V);
  i_one : option (outcome V);                  (* num_traits::One *)
  i_add : option (V -> V -> outcome V);
  i_sub : option (V -> V -> outcome V);
  i_div : option (V -> V -> outcome V);
}.
Arguments i_bounded {V}. Arguments i_default {V}. Arguments i_one {V}.
Arguments i_add {V}. Arguments i_sub {V}. Arguments i_div {V}.

Section Ops.
  Context {V : Type}.

  (** A binary operation: the operands are evaluated left to right. *)
  Definition op2 (f : V -> V -> outcome V) (a b : outcome V) : outcome V :=
    bind a (fun x => bind b (fun y => f x y)).

  (** runtime/src/traits.rs:4-15 [MinValueAddOne]: implemented, and its method. *)
  Definition min_add_one (t : impls V) : option (outcome V) :=
    match i_add t, i_bounded t, i_one t with
    | Some add, Some (mn, _), Some one => Some (op2 add mn one)
    | _, _, _ => None
    end.

  (** runtime/src/traits.rs:17-28 [MaxValueSubOne]. *)
  Definition max_sub_one (t : impls V) : option (outcome V) :=
    match i_sub t, i_bounded t, i_one t with
    | Some sub, Some (_, mx), Some one => Some (op2 sub mx one)
    | _, _, _ => None
    end.

  (** runtime/src/traits.rs:30-41 [Two]. *)
  Definition i_two (t : impls V) : option (outcome V) :=
    match i_add t, i_one t with
    | Some add, Some one => Some (op2 add one one)
    | _, _ => None
    end.

  (** runtime/src/traits.rs:43-59 [Middle]: [low] and [high]. *)
  Definition i_middle (t : impls V) : option (outcome V * outcome V) :=
    match i_add t, i_div t, i_bounded t, i_one t, i_two t with
    | Some add, Some div, Some (mn, mx), Some one, Some two =>
        let lo := op2 add (op2 div mn two) (op2 div mx two) in
        Some (lo, op2 add lo one)
    | _, _, _, _, _ => None
    end.

  (** runtime/src/lib.rs:67-92 [auto_impl!]: the vector of the inherent method of [Auto<T>] if
      the type implements the trait, that of the fallback otherwise (an inherent method takes
      precedence over one of a trait). *)
  Definition auto_impl (vals : option (list (outcome V))) : outcome (list V) :=
    match vals with Some l => mapM (fun x => x) l | None => Ret [] end.

  (** runtime/src/lib.rs:94-118 [auto!]: the five vectors are built in order, and
      concatenated. *)
  Definition auto (t : impls V) : outcome (list V) :=
    bind (auto_impl (option_map (fun '(mn, mx) => [mn; mx]) (i_bounded t))) (fun l1 =>
    bind (auto_impl (option_map (fun d => [d]) (i_default t))) (fun l2 =>
    bind (auto_impl (option_map (fun d => [d]) (max_sub_one t))) (fun l3 =>
    bind (auto_impl (option_map (fun '(lo, hi) => [lo; hi]) (i_middle t))) (fun l4 =>
    bind (auto_impl (option_map (fun d => [d]) (min_add_one t))) (fun l5 =>
    Ret (List.concat [l1; l2; l3; l4; l5])))))).

  (** macro/src/lib.rs:446-453, 728: the values of all arguments, in order. *)
  Definition autos_of (ts : list (impls V)) : outcome (list (list V)) := mapM auto ts.
End Ops.

(** The integer types (core, num_traits): all the traits. *)
Definition int_impls (t : ity) : impls Z :=
  {| i_bounded := Some (Ret (it_min t), Ret (it_max t)); i_default := Some (Ret 0%Z); i_one := Some (Ret 1%Z);
     i_add := Some (it_add t); i_sub := Some (it_sub t); i_div := Some (it_div t) |}.
