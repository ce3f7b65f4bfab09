(** The helpers for users' own types: [dont_care!], [leak!], [serde_ref] and the blanket
    implementation of [FromRef]. *)
From Coq Require Import List Ascii String Bool Arith NArith Lia.
From Verif Require Import Base Utf8 Serde.
From Verif Require MacroArgs Combinators.
Import ListNotations.

(** ** [dont_care!] *)

(** Types of arguments: a type with ordinary implementations, a type given to
    [dont_care!] with the value [e] of its expression, and derived structs, vectors and
    options of such types. *)
Inductive uty :=
| UBase (t : ty) | UDontCare (e : nat) | UStruct (us : list uty) | UVec (u : uty) | UOption (u : uty).

(** Their values; those of a [dont_care!] type are numbered. *)
Inductive uval :=
| XBase (v : val) | XAny (n : nat) | XStruct (xs : list uval) | XVec (xs : list uval) | XNone | XSome (x : uval).

(** The shape the [Deserialize] implementation asks for (test-fuzz/src/utils.rs:18-25 for
    [dont_care!]: the unit type). *)
Fixpoint shape (u : uty) : ty :=
  match u with
  | UBase t => t
  | UDontCare _ => TUnit
  | UStruct us => TTuple (map shape us)
  | UVec u => TSeq (shape u)
  | UOption u => TOption (shape u)
  end.

(** [serialize] (test-fuzz/src/utils.rs:9-16 for [dont_care!]: the unit value).  A value
    that does not fit the type is excluded by the compiler; here it gives the unit. *)
Fixpoint to_val (u : uty) (x : uval) : val :=
  match u, x with
  | UBase _, XBase v => v
  | UDontCare _, XAny _ => VUnit
  | UStruct us, XStruct xs =>
      VTuple ((fix go us xs := match us, xs with u :: us, x :: xs => to_val u x :: go us xs | _, _ => [] end) us xs)
  | UVec u, XVec xs => VSeq (map (to_val u) xs)
  | UOption _, XNone => VNone
  | UOption u, XSome x => VSome (to_val u x)
  | _, _ => VUnit
  end.

Definition both {A B C} (f : A -> B -> C) (a : option A) (b : option B) : option C :=
  match a, b with Some a, Some b => Some (f a b) | _, _ => None end.

(** [deserialize] from what the format found (test-fuzz/src/utils.rs:18-25 for
    [dont_care!]: [.map(|_| $expr)]).  Simplification: evaluating the expression gives
    the same value each time. *)
Fixpoint from_val (u : uty) (v : val) : option uval :=
  match u, v with
  | UBase _, v => Some (XBase v)
  | UDontCare e, VUnit => Some (XAny e)
  | UStruct us, VTuple vs =>
      option_map XStruct
        ((fix go us vs := match us, vs with
                          | [], _ => Some []
                          | u :: us, v :: vs => both cons (from_val u v) (go us vs)
                          | _, _ => None
                          end) us vs)
  | UVec u, VSeq vs => option_map XVec (fold_right (fun v r => both cons (from_val u v) r) (Some []) vs)
  | UOption _, VNone => Some XNone
  | UOption u, VSome v => option_map XSome (from_val u v)
  | _, _ => None
  end.

(** ** [leak!] *)

(** In the program [w], [leak!(t, ident)] was used (test-fuzz/src/utils.rs:34-52) for a type with
    the given [ToOwned] implementation: [From<&t> for ident] with the blanket [FromRef]
    (test-fuzz/src/convert.rs:1-13, where cloning a reference gives the same reference), and
    [Into<&t> for ident], which borrows from a leaked box.  The wrapper is represented by
    what it wraps. *)
Definition leaks (w : MacroArgs.world) (t ident : Syntax.rty) (to_owned borrow : MacroArgs.val -> MacroArgs.val) : Prop :=
  (forall lt v, MacroArgs.from_ref w ident (Syntax.RRef lt false t) (MacroArgs.VRef v) = Some (to_owned v)) /\
  (forall v, MacroArgs.into w (MacroArgs.sem ident) (MacroArgs.TRef false (MacroArgs.sem t)) v = Some (MacroArgs.VRef (borrow v))).

(** ** [serde_ref], [serde_ref_mut] *)

(** test-fuzz/src/utils.rs:62-70 [serialize_ref]. *)
Definition serialize_ref {X R} (inner : X -> outcome R) (x : X) (s : Combinators.store X) : outcome R :=
  fst (fst (fst (Combinators.ser inner (Combinators.CRef Combinators.CType) (Combinators.VRef (Combinators.VLeaf x)) s []))).

(** test-fuzz/src/utils.rs:92-100 [serialize_ref_mut]. *)
Definition serialize_ref_mut {X R} (inner : X -> outcome R) (x : X) (s : Combinators.store X) : outcome R :=
  fst (fst (fst (Combinators.ser inner (Combinators.CRefMut Combinators.CType) (Combinators.VRefMut (Combinators.VLeaf x)) s []))).

(** test-fuzz/src/utils.rs:75-83 [deserialize_ref]; [r] is the answer of the type's own deserialisation. *)
Definition deserialize_ref {X} (r : outcome X) (s : Combinators.store X) (next : nat) : outcome (Combinators.value X) :=
  match Combinators.des (Combinators.CRef Combinators.CType) r s next with
  | Ret (v, _, _) => Ret v
  | Err e => Err e
  | Panic => Panic
  end.

(** test-fuzz/src/utils.rs:104-112 [deserialize_ref_mut]. *)
Definition deserialize_ref_mut {X} (r : outcome X) (s : Combinators.store X) (next : nat) : outcome (Combinators.value X) :=
  match Combinators.des (Combinators.CRefMut Combinators.CType) r s next with
  | Ret (v, _, _) => Ret v
  | Err e => Err e
  | Panic => Panic
  end.
