(** C70: arguments without [Debug]. *)
From Coq Require Import String List Ascii Bool Arith Lia.
From Verif Require Import Base DebugName.
Import ListNotations.

(** For every type name [t], wherever [TryDebug] itself is defined, the placeholder
    shows [t] in full, even if [t] mentions [TryDebug<] itself; there is no panic. *)
Theorem C70_placeholder :
  forall (krate t : str),
    ~ In "<"%char krate ->
    try_debug None (krate ++ lit "TryDebug<" ++ t ++ lit ">") = Ret (lit "<unknown of type " ++ t ++ lit ">").
Proof.
  intros pre t N. unfold try_debug, debug_unimplemented.
  change (lit "TryDebug<") with pat. rewrite find_pat by exact N.
  rewrite app_assoc, <- app_length, skipn_app, skipn_all, Nat.sub_diag. cbn [skipn app].
  now rewrite strip_suffix_app.
Qed.
Print Assumptions C70_placeholder.

(** Different types are never confused, and a type with [Debug] shows its own text. *)
Theorem C70_distinct :
  forall (krate t u : str),
    ~ In "<"%char krate ->
    try_debug None (krate ++ lit "TryDebug<" ++ t ++ lit ">") = try_debug None (krate ++ lit "TryDebug<" ++ u ++ lit ">") ->
    t = u.
Proof.
  intros pre t u N E. rewrite !C70_placeholder in E by exact N. injection E as E. now apply app_inv_tail in E.
Qed.
Print Assumptions C70_distinct.

(** A value that implements [Debug] is shown by it. *)
Theorem C70_debug_is_used : forall s n, try_debug (Some s) n = Ret s.
Proof. reflexivity. Qed.
Print Assumptions C70_debug_is_used.

Example C70_example :
  try_debug None (lit "test_fuzz_runtime::TryDebug<k::Wrapper<test_fuzz_runtime::TryDebug<u8>>>")
  = Ret (lit "<unknown of type k::Wrapper<test_fuzz_runtime::TryDebug<u8>>>").
Proof. vm_compute. reflexivity. Qed.
