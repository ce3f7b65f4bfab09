(** Arguments with Serde field attributes: what the derived implementations of [Args] do with
    fields that are not written or not read. *)
From Coq Require Import List Ascii String Bool Arith NArith Lia.
From Verif Require Import Base Harness EndToEnd.
From Verif Require MacroArgs Serde Postcard.
Import ListNotations.

Module M := MacroArgs.

(** What the attributes of a field say, as far as the binary formats are concerned:
    [skip], [skip_serializing] and [skip_serializing_if] decide which values are written;
    [skip] and [skip_deserializing] that the field is not read but gets a default, which is
    [Default::default()] or what [default = "..."] names.  ([default] alone has no effect on
    a format that stores the fields in order: the reader never runs out of fields.
    [with], [serialize_with], [deserialize_with] and [bound] choose the implementations,
    which are in [impls].) *)
Record attr := { a_written : M.val -> bool; a_read : bool; a_default : M.val }.

(** No attributes. *)
Definition plain (d : M.val) : attr := {| a_written := fun _ => true; a_read := true; a_default := d |}.
(** [serde(skip)] and [serde(skip_serializing)]. *)
Definition skip (d : M.val) : attr := {| a_written := fun _ => false; a_read := false; a_default := d |}.
Definition skip_serializing (d : M.val) : attr := {| a_written := fun _ => false; a_read := true; a_default := d |}.

(** macro/src/lib.rs:426-436 (the attributes of an argument are put on its field; the
    [PhantomData] fields of 420 have none) and 665-672: the derived [Serialize]: the fields
    that are written, in order. *)
Fixpoint written (at_ : M.mapped_arg -> attr) (i : impls) (rs : list M.mapped_arg) (stored : list M.val) : list Serde.val :=
  match rs, stored with
  | r :: rs, v :: stored => if a_written (at_ r) v then i_to i r v :: written at_ i rs stored else written at_ i rs stored
  | _, _ => []
  end.
Definition args_value_at (at_ : M.mapped_arg -> attr) (i : impls) (rs : list M.mapped_arg) (phantoms : nat) (stored : list M.val) : Serde.val :=
  Serde.VTuple (written at_ i rs stored ++ repeat Serde.VUnit phantoms).

(** macro/src/lib.rs:679-686: the derived [Deserialize]: the shape asked for has only the
    fields that are read; the others are filled in. *)
Definition args_shape_at (at_ : M.mapped_arg -> attr) (i : impls) (rs : list M.mapped_arg) (phantoms : nat) : Serde.ty :=
  Serde.TTuple (map (i_shape i) (List.filter (fun r => a_read (at_ r)) rs) ++ repeat Serde.TUnit phantoms).
Fixpoint fields_from_at (at_ : M.mapped_arg -> attr) (i : impls) (rs : list M.mapped_arg) (vs : list Serde.val) : option (list M.val) :=
  match rs with
  | [] => Some []
  | r :: rs =>
      if a_read (at_ r) then
        match vs with
        | v :: vs =>
            match i_from i r v, fields_from_at at_ i rs vs with
            | Some x, Some xs => Some (x :: xs)
            | _, _ => None
            end
        | [] => None
        end
      else
        match fields_from_at at_ i rs vs with
        | Some xs => Some (a_default (at_ r) :: xs)
        | None => None
        end
  end.

(** runtime/src/lib.rs:183-187 [write_args] and 199-201 [read_args], as in [EndToEnd]. *)
Definition args_data_at (eof_zero : bool) (at_ : M.mapped_arg -> attr) (i : impls) (rs : list M.mapped_arg) (phantoms : nat)
    (stored : list M.val) : bytes :=
  Postcard.serialize eof_zero false (args_value_at at_ i rs phantoms stored).
Definition args_decode_at (eof_zero : bool) (env : nat -> Serde.ty) (fuel : nat) (at_ : M.mapped_arg -> attr) (i : impls)
    (rs : list M.mapped_arg) (phantoms : nat) (data : bytes) : decoded (list M.val) :=
  match Postcard.deserialize eof_zero false env fuel (args_shape_at at_ i rs phantoms) data with
  | Postcard.Value (Serde.VTuple vs) =>
      match fields_from_at at_ i rs vs with Some xs => Decoded xs | None => NotDecoded end
  | Postcard.Value _ => NotDecoded
  | Postcard.NoValue => NotDecoded
  | Postcard.StackOverflow => DecodePanic
  end.
