(** The serde combinators (serde_combinators/src). *)
From Coq Require Import List Ascii String Bool Arith Lia.
From Verif Require Import Base.
Import ListNotations.
Local Open Scope nat_scope.

(** A combinator: [Type], [RefF], [RefMutF], [MutexF] and [RwLockF] (serde_combinators/src/{type_,ref_,
    ref_mut,mutex,rw_lock}.rs); it stands for the type whose values it serialises. *)
Inductive comb := CType | CRef (w : comb) | CRefMut (w : comb) | CMutex (w : comb) | CRwLock (w : comb).

(** A value of such a type: the locks are known by their addresses, their contents are in the
    store.  [X] is the innermost type. *)
Inductive value (X : Type) := VLeaf (x : X) | VRef (v : value X) | VRefMut (v : value X) | VMutex (id : nat) | VRwLock (id : nat).
Arguments VLeaf {X}. Arguments VRef {X}. Arguments VRefMut {X}. Arguments VMutex {X}. Arguments VRwLock {X}.

(** A lock: who holds it exclusively ([Some true]: this thread), how many shared guards this
    and other threads hold, whether somebody is queued for it, whether it is poisoned, and
    what it contains. *)
Record cell (X : Type) := { c_excl : option bool; c_mine : nat; c_others : nat; c_queued : bool; c_poison : bool; c_content : value X }.
Arguments c_excl {X}. Arguments c_mine {X}. Arguments c_others {X}. Arguments c_queued {X}. Arguments c_poison {X}. Arguments c_content {X}.

Definition store (X : Type) := nat -> cell X.
Definition set {X} (s : store X) (id : nat) (c : cell X) : store X := fun i => if i =? id then c else s i.

(** What other threads do at some moment. *)
Definition interference (X : Type) := store X -> store X.
Definition interfere {X} (env : list (interference X)) (s : store X) : store X := match env with [] => s | f :: _ => f s end.

Definition would_block : str := lit "try_lock failed because the operation would block".
Definition poisoned : str := lit "poisoned lock: another task failed inside".

(** What happens during serialisation: an attempt to get a lock (a mutex if [mutex]) with the
    state of the lock and the result, the serialisation of the innermost value with the
    store at that time, a release. *)
Inductive event (X : Type) := ETry (mutex : bool) (id : nat) (c : cell X) (ok : bool) | EInner (s : store X) (x : X) | ERelease (mutex : bool) (id : nat).
Arguments ETry {X}. Arguments EInner {X}. Arguments ERelease {X}.

(** [Mutex::try_lock] (std): [None] if granted, else the error shown.  A poisoned lock is
    granted inside of the error, which is dropped at once. *)
Definition try_lock {X} (c : cell X) : option str :=
  match c_excl c with
  | Some _ => Some would_block
  | None => if c_poison c then Some poisoned else None
  end.
Definition lock {X} (c : cell X) : cell X :=
  {| c_excl := Some true; c_mine := c_mine c; c_others := c_others c; c_queued := c_queued c; c_poison := c_poison c; c_content := c_content c |}.

(** Dropping a [MutexGuard]; in a panic the mutex is poisoned (std).  Simplification: no
    panic is under way when serialisation begins. *)
Definition unlock {X} (panicking : bool) (c : cell X) : cell X :=
  {| c_excl := None; c_mine := c_mine c; c_others := c_others c; c_queued := c_queued c; c_poison := c_poison c || panicking; c_content := c_content c |}.

(** [RwLock::try_read] (std).  On Linux it is also refused while threads are queued.
    Simplification: the limit on the number of readers is not modelled. *)
Definition try_read {X} (c : cell X) : option str :=
  match c_excl c with
  | Some _ => Some would_block
  | None => if c_queued c then Some would_block else if c_poison c then Some poisoned else None
  end.
Definition read_lock {X} (c : cell X) : cell X :=
  {| c_excl := c_excl c; c_mine := S (c_mine c); c_others := c_others c; c_queued := c_queued c; c_poison := c_poison c; c_content := c_content c |}.
(** Dropping an [RwLockReadGuard] (std). *)
Definition read_unlock {X} (c : cell X) : cell X :=
  {| c_excl := c_excl c; c_mine := pred (c_mine c); c_others := c_others c; c_queued := c_queued c; c_poison := c_poison c; c_content := c_content c |}.

Definition is_panic {A} (o : outcome A) : bool := match o with Panic => true | _ => false end.

Section Serialize.
  Context {X R : Type}.
  (** [T::serialize(value, serializer)] of the innermost type with the serializer at hand. *)
  Variable inner : X -> outcome R.

  (** The [serialize] functions of the five combinators with [compose_serialize]
      (serde_combinators/src/lib.rs:68-78, type_.rs:13-18, ref_.rs:13-21, ref_mut.rs:13-21, mutex.rs:13-24,
      rw_lock.rs:13-24): the result, the store, what happened, and the interference left.
      Others may interfere before every attempt and every release.  A value that does not
      fit the type is excluded by the compiler; here it gives [Panic]. *)
  Fixpoint ser (w : comb) (v : value X) (s : store X) (env : list (interference X)) : outcome R * store X * list (event X) * list (interference X) :=
    match w, v with
    | CType, VLeaf x => (inner x, s, [EInner s x], env)
    | CRef w, VRef v => ser w v s env
    | CRefMut w, VRefMut v => ser w v s env
    | CMutex w, VMutex id =>
        let s := interfere env s in
        match try_lock (s id) with
        | Some e => (Err e, s, [ETry true id (s id) false], tl env)
        | None =>
            let '(r, s', tr, env') := ser w (c_content (s id)) (set s id (lock (s id))) (tl env) in
            let s' := interfere env' s' in
            (r, set s' id (unlock (is_panic r) (s' id)), ETry true id (s id) true :: tr ++ [ERelease true id], tl env')
        end
    | CRwLock w, VRwLock id =>
        let s := interfere env s in
        match try_read (s id) with
        | Some e => (Err e, s, [ETry false id (s id) false], tl env)
        | None =>
            let '(r, s', tr, env') := ser w (c_content (s id)) (set s id (read_lock (s id))) (tl env) in
            let s' := interfere env' s' in
            (r, set s' id (read_unlock (s' id)), ETry false id (s id) true :: tr ++ [ERelease false id], tl env')
        end
    | _, _ => (Panic, s, [], env)
    end.
End Serialize.

Section Deserialize.
  Context {X : Type}.

  (** [Mutex::new], [RwLock::new] (std). *)
  Definition new_cell (v : value X) : cell X := {| c_excl := None; c_mine := 0; c_others := 0; c_queued := false; c_poison := false; c_content := v |}.

  (** The [deserialize] functions of the combinators with [compose_deserialize]
      (serde_combinators/src/lib.rs:81-93, type_.rs:27-32, ref_.rs:30-37, ref_mut.rs:30-37, mutex.rs:33-38,
      rw_lock.rs:33-38); [r] is the result of [T::deserialize(deserializer)] of the innermost
      type.  New locks get addresses from [next] on. *)
  Fixpoint des (w : comb) (r : outcome X) (s : store X) (next : nat) : outcome (value X * store X * nat) :=
    match w with
    | CType => bind r (fun x => Ret (VLeaf x, s, next))
    | CRef w => bind (des w r s next) (fun '(v, s, next) => Ret (VRef v, s, next))
    | CRefMut w => bind (des w r s next) (fun '(v, s, next) => Ret (VRefMut v, s, next))
    | CMutex w => bind (des w r s next) (fun '(v, s, next) => Ret (VMutex next, set s next (new_cell v), S next))
    | CRwLock w => bind (des w r s next) (fun '(v, s, next) => Ret (VRwLock next, set s next (new_cell v), S next))
    end.
End Deserialize.
