(** The placeholder for arguments whose type has no [Debug]. *)
From Coq Require Import String List Ascii Bool Arith Lia.
From Verif Require Import Base.
Import ListNotations.

(** runtime/src/lib.rs:34 [PAT]. *)
Definition pat : str := lit "TryDebug<".

(** runtime/src/lib.rs:33-42 [DebugUnimplemented::fmt]; [type_name] is the name of the
    type it is instantiated with.  Slicing is at a character boundary, since the
    pattern is ASCII. *)
Definition debug_unimplemented (type_name : str) : outcome str :=
  match str_find pat type_name with
  | None => Panic
  | Some p =>
      match strip_suffix (lit ">") (skipn (p + List.length pat) type_name) with
      | None => Panic
      | Some t => Ret (lit "<unknown of type " ++ t ++ lit ">")
      end
  end.

(** runtime/src/lib.rs:44-60: which text is shown for an argument: [debug] is its
    [Debug] text if the type has one (method resolution prefers the inherent method,
    which exists exactly then; external), [name] the name of the type [TryDebug] is
    instantiated with. *)
Definition try_debug (debug : option str) (type_name : str) : outcome str :=
  match debug with Some s => Ret s | None => debug_unimplemented type_name end.

(** Since the pattern ends in its only [<], the first occurrence is where it is put. *)
Lemma find_pat pre t : ~ In "<"%char pre -> str_find pat (pre ++ pat ++ t) = Some (List.length pre).
Proof.
  intros N. apply str_find_first; [exists pre, t; auto|].
  intros j Lt (a & b & Eq & <-).
  (* the pattern's [<] would lie in [pre] or inside the pattern before its end *)
  assert (Nth : nth_error (a ++ pat ++ b) (List.length a + 8) = Some "<"%char).
  { rewrite nth_error_app2 by lia. replace (List.length a + 8 - List.length a) with 8 by lia. reflexivity. }
  rewrite <- Eq in Nth. destruct (Nat.le_gt_cases (List.length pre) (List.length a + 8)) as [G|G].
  - rewrite nth_error_app2 in Nth by exact G.
    assert (K : List.length a + 8 - List.length pre < 8) by lia.
    remember (List.length a + 8 - List.length pre) as j. clear - Nth K.
    do 8 (destruct j as [|j]; [cbn in Nth; discriminate|]). lia.
  - rewrite nth_error_app1 in Nth by exact G. apply nth_error_In in Nth. contradiction.
Qed.
