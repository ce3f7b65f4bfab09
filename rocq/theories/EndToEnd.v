(** From an instrumented call to the harness that replays it: the pieces that connect the
    models of the macro, of the serialisation format, of recording and of the harness. *)
From Coq Require Import List Ascii String Bool Arith NArith Lia.
From stdpp Require Import gmap.
From Verif Require Import Base Utf8 Env Opts Sha1 Dirs Fs Write Harness.
From Verif Require MacroArgs Serde Postcard.
Import ListNotations.

Module M := MacroArgs.

(** The user's (or derived) [Serialize] and [Deserialize] implementations of the types of
    the fields of [Args]: what is passed to the serialiser, what shape is asked of the
    deserialiser, and what becomes of its answer. *)
Record impls := {
  i_shape : M.mapped_arg -> Serde.ty;
  i_to : M.mapped_arg -> M.val -> Serde.val;
  i_from : M.mapped_arg -> Serde.val -> option M.val;
}.

(** macro/src/lib.rs:355-358, 420-436 (the fields: one for each argument, then one
    [PhantomData] for each generic type or lifetime parameter) and 664-672: the derived
    [Serialize] of the struct [Args], which for postcard is a tuple of the fields.
    Field attributes that change the derived code (such as [serde(skip)]) are in
    [SkipArgs]; here there are none. *)
Fixpoint field_values (i : impls) (rs : list M.mapped_arg) (stored : list M.val) : list Serde.val :=
  match rs, stored with
  | r :: rs, v :: stored => i_to i r v :: field_values i rs stored
  | _, _ => []
  end.
Definition args_value (i : impls) (rs : list M.mapped_arg) (phantoms : nat) (stored : list M.val) : Serde.val :=
  Serde.VTuple (field_values i rs stored ++ repeat Serde.VUnit phantoms).
Definition args_shape (i : impls) (rs : list M.mapped_arg) (phantoms : nat) : Serde.ty :=
  Serde.TTuple (map (i_shape i) rs ++ repeat Serde.TUnit phantoms).

(** macro/src/lib.rs:678-687: the derived [Deserialize] of [Args], given a sequence of values. *)
Fixpoint fields_from (i : impls) (rs : list M.mapped_arg) (vs : list Serde.val) : option (list M.val) :=
  match rs, vs with
  | [], _ => Some []
  | r :: rs, v :: vs =>
      match i_from i r v, fields_from i rs vs with
      | Some x, Some xs => Some (x :: xs)
      | _, _ => None
      end
  | _, _ => None
  end.

(** runtime/src/lib.rs:183-187 [write_args] and internal/src/serde_format.rs: the bytes
    recorded for a call (default format, postcard). *)
Definition args_data (eof_zero : bool) (i : impls) (rs : list M.mapped_arg) (phantoms : nat) (stored : list M.val) : bytes :=
  Postcard.serialize eof_zero false (args_value i rs phantoms stored).

(** runtime/src/lib.rs:199-201 [read_args] on standard input, with a stack for [fuel] nested calls. *)
Definition args_decode (eof_zero : bool) (env : nat -> Serde.ty) (fuel : nat) (i : impls) (rs : list M.mapped_arg) (phantoms : nat)
    (data : bytes) : decoded (list M.val) :=
  match Postcard.deserialize eof_zero false env fuel (args_shape i rs phantoms) data with
  | Postcard.Value (Serde.VTuple vs) =>
      match fields_from i rs vs with Some xs => Decoded xs | None => NotDecoded end
  | Postcard.Value _ => NotDecoded
  | Postcard.NoValue => NotDecoded
  | Postcard.StackOverflow => DecodePanic
  end.

(** runtime/src/lib.rs:171-187: the three recording functions on a file system.  [tg]:
    the name of the type [Args] that macro/src/lib.rs:496-504 gives to the first two;
    [ta]: the name of the local type [Args] of macro/src/lib.rs:664-672; [data]: the bytes
    of the arguments. *)
Definition record_fs {A} (td : path) (id : option str) (tg ta : str) (data : A -> bytes) (r : record_ A) (m : fs) : fs * bool :=
  let go k tn bytes := match dir_from_args_type td id k tn with
                       | Ret d => write_data m d bytes
                       | _ => (m, false)
                       end in
  match r with
  | RecImplGenericArgs names => go ImplGenericArgs tg (join (lit ", ") names)
  | RecGenericArgs names => go GenericArgs tg (join (lit ", ") names)
  | RecArgs a => go Corpus ta (data a)
  end.
