(** What the macro says about a conversion that applies to no argument. *)
From Coq Require Import List Ascii String Bool Arith NArith Lia.
From Verif Require Import Base Semver Syntax SelfTy MacroArgs.
From Verif Require ListText.
Import ListNotations.

Section Text.
  (** Which characters std prints as they are (external), and how tokens are printed (proc_macro2,
      external). *)
  Variables (printable : bytes -> bool) (print : list tok -> str).

  (** macro/src/ord_type.rs:20-38 [OrdType]: types are compared by their printed form.  A [BTreeMap]
      (std) goes through its entries in the order of the keys. *)
  Fixpoint place (e : list tok * (rty * bool)) (l : table) : table :=
    match l with
    | [] => [e]
    | x :: l' => match str_cmp (print (fst e)) (print (fst x)) with Gt => x :: place e l' | _ => e :: l end
    end.
  Definition in_order (c : table) : table := fold_right place [] c.

  (** [BTreeSet::insert] (std), for macro/src/lib.rs:935. *)
  Fixpoint set_insert (x : str) (l : list str) : list str :=
    match l with
    | [] => [x]
    | y :: l' => match str_cmp x y with Lt => x :: l | Eq => l | Gt => y :: set_insert x l' end
    end.
  Definition set_of (l : list str) : list str := fold_left (fun s x => set_insert x s) l [].

  (** [DebugSet] with [{:#?}] (std); macro/src/ord_type.rs:14-18 makes each type a string. *)
  Definition set_text (l : list str) : str :=
    match l with
    | [] => lit "{}"
    | _ => lit "{" ++ [LF] ++ List.concat (map (fun x => ListText.item (ListText.debug_text printable false x)) l) ++ lit "}"
    end.

  (** macro/src/lib.rs:409-417: the message of the panic, if there is one. *)
  Definition unused_text (c : table) (cands : list (list tok)) : option str :=
    match find (fun e => negb (snd (snd e))) (in_order c) with
    | Some (k, (to, _)) =>
        Some (lit "Conversion """ ++ print k ++ lit """ -> """ ++ print (toks to)
              ++ lit """ does not apply to the following candidates: " ++ set_text (set_of (map print cands)))
    | None => None
    end.

  (** macro/src/lib.rs:272-282 and 398-420: the message of an expansion. *)
  Definition message (trait_path : option rpath) (self_ty : option rty) (opts : list (list rty)) (draws : list N) (l : list fn_arg) : option str :=
    match make_table opts [] with
    | Ret c => match map_args trait_path self_ty (c, [], draws) l with Ret (s, _) => unused_text (fst (fst s)) (snd (fst s)) | _ => None end
    | _ => None
    end.
End Text.

(** * Specification *)

Definition blank (c : ascii) : Prop := c = " "%char \/ c = LF.
(** What the expression of the test finds (test-fuzz/tests/integration/conversion.rs:11-17), for one
    candidate. *)
Definition reports (from to candidate m : str) : Prop :=
  exists w w', Forall blank w /\ Forall blank w' /\
    m = lit "Conversion """ ++ from ++ lit """ -> """ ++ to ++ lit """ does not apply to the following candidates: {"
        ++ w ++ lit """" ++ candidate ++ lit """," ++ w' ++ lit "}".
