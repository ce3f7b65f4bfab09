(** Supporting code: the retries of the test suite and the log of the macro. *)
From Coq Require Import List Ascii String Bool Arith NArith Lia.
From Verif Require Import Base.
Import ListNotations.
Local Open Scope nat_scope.

(** ** testing/src/retry.rs *)

(** What is logged: [info!], [warn!] or [error!], with the value or the error. *)
Inductive logged (T E : Type) := Info (t : T) | Warn (e : E) | Error (e : E).
Arguments Info {T E}. Arguments Warn {T E}. Arguments Error {T E}.

(** testing/src/retry.rs:12-27: the loop, [i] calls made before, [k] iterations left.  The i-th
    call of the operation gives [op i]; formatting values and errors does not fail. *)
Fixpoint retry_loop {T E} (op : nat -> T + E) (n i k : nat) : list (logged T E) * outcome (T + E) :=
  match k with
  | 0 => ([], Panic)
  | S k =>
      match op (S i) with
      | inl t => ([Info t], Ret (inl t))
      | inr e => if S i <? n then let (l, r) := retry_loop op n (S i) k in (Warn e :: l, r) else ([Error e], Ret (inr e))
      end
  end.
(** testing/src/retry.rs:4-30 [retry]: what is logged and the result; the last line is
    [unreachable!]. *)
Definition retry {T E} (n : nat) (op : nat -> T + E) : list (logged T E) * outcome (T + E) :=
  if 1 <=? n then retry_loop op n 0 n else ([], Panic).

(** ** The log of the macro *)

(** macro/src/lib.rs:1199-1201 [log_enabled]; [var] is the variable at the time the macro was
    compiled ([option_env!]), [krate] the environment variable CARGO_CRATE_NAME, which is read
    only if needed (lib.rs:43-44). *)
Definition log_enabled (var krate : option str) : outcome bool :=
  match var with
  | None => Ret false
  | Some v => if str_eqb v (lit "1") then Ret true else match krate with Some k => Ret (str_eqb v k) | None => Panic end
  end.
(** macro/src/lib.rs:1191-1197 [log] and its uses (97, 227): what is printed for an expansion, and
    the expansion.  [format]: parsing and pretty printing, which can fail. *)
Definition logged_expansion {X} (var krate : option str) (format : X -> option str) (x : X) : outcome (option str * X) :=
  bind (log_enabled var krate) (fun b =>
  if b then match format x with Some s => Ret (Some s, x) | None => Panic end else Ret (None, x)).
