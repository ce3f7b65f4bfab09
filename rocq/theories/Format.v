(** The choice of the serialisation format by the features of the build. *)
From Coq Require Import List Ascii String Bool Arith NArith Lia.
From Verif Require Import Base Serde Postcard Bincode.
Import ListNotations.
Local Open Scope nat_scope.

(** internal/Cargo.toml:26-27, test-fuzz/Cargo.toml:46-47: the features that are enabled. *)
Record features := { ft_bincode : bool; ft_postcard : bool }.

(** internal/build.rs:1-4: [cfg(serde_default)]. *)
Definition serde_default (f : features) : bool := negb (ft_bincode f || ft_postcard f).

(** internal/src/serde_format.rs:15-32 [as_feature].  The list is a [Vec]; [pop] takes the last. *)
Definition as_feature (f : features) : outcome str :=
  let formats := (if ft_bincode f then [lit "serde_bincode"] else []) ++ (if serde_default f || ft_postcard f then [lit "serde_postcard"] else []) in
  if 1 <? List.length formats then Panic
  else match rev formats with x :: _ => Ret x | [] => Panic end.

(** internal/src/serde_format.rs:34-57, 60-78: [serialize] and [deserialize] are sequences of
    [return] expressions, each compiled under a condition; the first one compiled counts, and there
    must be one, or the function does not have its type. *)
Definition first_return {A} (stmts : list (bool * A)) : option A :=
  match filter fst stmts with (_, a) :: _ => Some a | [] => None end.
Definition serialize_with (eof_zero sticky : bool) (f : features) : option (val -> bytes) :=
  first_return [(ft_bincode f, Bincode.serialize); (serde_default f || ft_postcard f, Postcard.serialize eof_zero sticky)].
Definition deserialize_with (eof_zero sticky : bool) (f : features) : option ((nat -> ty) -> nat -> ty -> bytes -> deserialized) :=
  first_return [(ft_bincode f, Bincode.deserialize); (serde_default f || ft_postcard f, Postcard.deserialize eof_zero sticky)].

(** Enabling a feature of test-fuzz by its name (test-fuzz/Cargo.toml:46-47). *)
Definition enable (name : str) (f : features) : features :=
  {| ft_bincode := ft_bincode f || str_eqb name (lit "serde_bincode"); ft_postcard := ft_postcard f || str_eqb name (lit "serde_postcard") |}.
