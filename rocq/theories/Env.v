(** Process environments, the runtime's switches, and conversion of commands. *)
From Coq Require Import List Ascii String Bool Arith Lia.
From Verif Require Import Base Utf8.
Import ListNotations.

(** A process environment: variable name to value, both byte strings.
    Simplification: a total function, so infinite environments are allowed too. *)
Definition env := bytes -> option bytes.

(** [std::env::var(k).ok()] (std): [None] if unset or not UTF-8. *)
Definition var (e : env) (k : bytes) : option str :=
  match e k with
  | Some v => if valid_utf8 v then Some v else None
  | None => None
  end.

(** Set or unset one variable. *)
Definition env_set (e : env) (k : bytes) (v : option bytes) : env :=
  fun k' => if str_dec k' k then v else e k'.

(** [Command::envs] (std) / [Exec::env_extend] (subprocess): later settings win. *)
Fixpoint env_extend (l : list (bytes * bytes)) (e : env) : env :=
  match l with
  | [] => e
  | (k, v) :: l' => env_extend l' (env_set e k (Some v))
  end.

(** runtime/src/lib.rs:165-169 [enabled]. *)
Definition enabled (e : env) (opt : str) : bool :=
  let key := lit "TEST_FUZZ" ++ (match opt with [] => [] | _ => lit "_" end) ++ opt in
  match var e key with
  | Some value => negb (str_eqb value (lit "0"))
  | None => false
  end.

(** runtime/src/lib.rs:135-163, the six switches. *)
Definition test_fuzz_enabled (e : env) : bool := enabled e [].
Definition coverage_enabled (e : env) : bool := enabled e (lit "COVERAGE").
Definition display_enabled (e : env) : bool := enabled e (lit "DISPLAY").
Definition pretty_print_enabled (e : env) : bool := enabled e (lit "PRETTY_PRINT").
Definition replay_enabled (e : env) : bool := enabled e (lit "REPLAY").
Definition write_enabled (e : env) : bool := enabled e (lit "WRITE").

(** * Commands *)

(** [std::process::Command] as far as [to_exec] reads it: program, arguments, the
    explicitly set ([Some]) or removed ([None]) variables with at most one entry
    per name in name order ([get_envs]), working directory.
    Simplification: [env_clear] is not represented ([get_envs] does not show it and
    the project never calls it). *)
Record command := {
  c_program : bytes;
  c_args : list bytes;
  c_envs : list (bytes * option bytes);
  c_cwd : option bytes;
}.

(** The environment a [Command] gives its child, from the parent's (std). *)
Definition command_env (c : command) (parent : env) : env :=
  fun k => match List.find (fun kv => str_eqb (fst kv) k) (c_envs c) with
           | Some (_, v) => v
           | None => parent k
           end.

(** [subprocess::Exec] as built here: [x_env] is the list of variables, [None]
    while untouched (inherit), otherwise a complete list in which later
    entries win. *)
Record exec := {
  x_program : bytes;
  x_args : list bytes;
  x_env : option (list (bytes * bytes));
  x_cwd : option bytes;
}.

(** Lookup in a variable list in which later entries win. *)
Definition lookup_last (l : list (bytes * bytes)) : env :=
  fun k => match List.find (fun kv => str_eqb (fst kv) k) (rev l) with
           | Some (_, v) => Some v
           | None => None
           end.

(** The environment an [Exec] gives its child (subprocess 1.2.1). *)
Definition exec_env (x : exec) (parent : list (bytes * bytes)) : env :=
  match x_env x with
  | None => lookup_last parent
  | Some l => lookup_last l
  end.

(** [Exec::ensure_env]: start from a copy of the parent's environment. *)
Definition ensure_env (x : exec) (parent : list (bytes * bytes)) : list (bytes * bytes) :=
  match x_env x with None => parent | Some l => l end.

(** [Exec::env], [Exec::env_remove], [Exec::env_extend], [Exec::cwd], [Exec::args]
    (subprocess 1.2.1). *)
Definition x_set_env (parent : list (bytes * bytes)) (x : exec) (k v : bytes) : exec :=
  {| x_program := x_program x; x_args := x_args x;
     x_env := Some (ensure_env x parent ++ [(k, v)]); x_cwd := x_cwd x |}.
Definition x_env_remove (parent : list (bytes * bytes)) (x : exec) (k : bytes) : exec :=
  {| x_program := x_program x; x_args := x_args x;
     x_env := Some (filter (fun kv => negb (str_eqb (fst kv) k)) (ensure_env x parent));
     x_cwd := x_cwd x |}.
Definition x_env_extend (parent : list (bytes * bytes)) (x : exec) (l : list (bytes * bytes)) : exec :=
  {| x_program := x_program x; x_args := x_args x;
     x_env := Some (ensure_env x parent ++ l); x_cwd := x_cwd x |}.

(** cargo-test-fuzz/src/to_exec.rs:18-24, the loop over [get_envs]. *)
Fixpoint copy_envs (parent : list (bytes * bytes)) (x : exec) (l : list (bytes * option bytes)) : exec :=
  match l with
  | [] => x
  | (k, Some v) :: l' => copy_envs parent (x_set_env parent x k v) l'
  | (k, None) :: l' => copy_envs parent (x_env_remove parent x k) l'
  end.

(** cargo-test-fuzz/src/to_exec.rs:15-29 [exec_from_command]. *)
Definition to_exec (parent : list (bytes * bytes)) (c : command) : exec :=
  let x := copy_envs parent
             {| x_program := c_program c; x_args := c_args c; x_env := None; x_cwd := None |}
             (c_envs c) in
  match c_cwd c with
  | Some p => {| x_program := x_program x; x_args := x_args x; x_env := x_env x; x_cwd := Some p |}
  | None => x
  end.

(** * Lemmas *)

Lemma env_set_same e k v : env_set e k v k = v.
Proof. unfold env_set. destruct (str_dec k k); congruence. Qed.

Lemma env_set_other e k v k' : k' <> k -> env_set e k v k' = e k'.
Proof. intros H. unfold env_set. destruct (str_dec k' k); congruence. Qed.

Lemma env_extend_app l1 l2 e : env_extend (l1 ++ l2) e = env_extend l2 (env_extend l1 e).
Proof. revert e; induction l1 as [|[k v] l1 IH]; intros e; simpl; auto. Qed.

Lemma env_extend_notin l e k : ~ In k (map fst l) -> env_extend l e k = e k.
Proof.
  revert e; induction l as [|[k' v] l IH]; intros e H; simpl in *; auto.
  rewrite IH by tauto. apply env_set_other. intros ->. apply H; auto.
Qed.

Lemma env_extend_in l e k v :
  In (k, v) l -> (forall v', In (k, v') l -> v' = v) -> env_extend l e k = Some v.
Proof.
  revert e; induction l as [|[k' v'] l IH]; intros e H U; simpl in *; [contradiction|].
  destruct (in_dec (fun a b => str_dec a b) k (map fst l)) as [Hin|Hni].
  - apply in_map_iff in Hin as ([k2 v2] & E & Hin). simpl in E. subst k2.
    assert (v2 = v) by (apply U; right; exact Hin). subst v2.
    apply IH; [exact Hin|]. intros v3 H3. apply U; right; exact H3.
  - rewrite env_extend_notin by exact Hni.
    destruct H as [H|H].
    + injection H as -> ->. apply env_set_same.
    + exfalso. apply Hni. apply in_map_iff. exists (k, v). auto.
Qed.

Lemma lookup_last_app l k v k' :
  lookup_last (l ++ [(k, v)]) k' = if str_dec k' k then Some v else lookup_last l k'.
Proof.
  unfold lookup_last. rewrite rev_app_distr. simpl.
  destruct (str_dec k' k) as [->|n].
  - rewrite str_eqb_refl. reflexivity.
  - destruct (str_eqb k k') eqn:E; [apply str_eqb_eq in E; congruence|reflexivity].
Qed.

Lemma find_filter_ne (l : list (bytes * bytes)) k k' :
  List.find (fun kv => str_eqb (fst kv) k') (filter (fun kv => negb (str_eqb (fst kv) k)) l)
  = if str_dec k' k then None else List.find (fun kv => str_eqb (fst kv) k') l.
Proof.
  induction l as [|[a v] l IH]; simpl.
  - destruct (str_dec k' k); reflexivity.
  - destruct (str_eqb a k) eqn:Ea; simpl.
    + rewrite IH. apply str_eqb_eq in Ea. subst a.
      destruct (str_dec k' k) as [->|n]; [reflexivity|].
      destruct (str_eqb k k') eqn:E; [apply str_eqb_eq in E; congruence|reflexivity].
    + rewrite IH. destruct (str_dec k' k) as [->|n]; [|reflexivity].
      now rewrite Ea.
Qed.

Lemma filter_rev {A} (f : A -> bool) l : filter f (rev l) = rev (filter f l).
Proof.
  induction l as [|a l IH]; [reflexivity|]. simpl. rewrite filter_app, IH. simpl.
  destruct (f a); simpl; [reflexivity|apply app_nil_r].
Qed.

Lemma lookup_last_filter l k k' :
  lookup_last (filter (fun kv => negb (str_eqb (fst kv) k)) l) k'
  = if str_dec k' k then None else lookup_last l k'.
Proof.
  unfold lookup_last. rewrite <- filter_rev, find_filter_ne.
  destruct (str_dec k' k); reflexivity.
Qed.

Lemma copy_envs_env parent x l k :
  NoDup (map fst l) ->
  exec_env (copy_envs parent x l) parent k
  = match List.find (fun kv => str_eqb (fst kv) k) l with
    | Some (_, v) => v
    | None => exec_env x parent k
    end.
Proof.
  revert x; induction l as [|[k1 v1] l IH]; intros x ND; simpl; [reflexivity|].
  simpl in ND. inversion ND as [|? ? Hni ND']; subst.
  assert (F : str_eqb k1 k = true -> List.find (fun kv => str_eqb (fst kv) k) l = None).
  { intros E. apply str_eqb_eq in E. subst k1.
    destruct (List.find _ l) as [[k2 v2]|] eqn:F; [|reflexivity].
    apply find_some in F as [F1 F2]. simpl in F2. apply str_eqb_eq in F2. subst k2.
    exfalso. apply Hni. apply in_map_iff. exists (k, v2). auto. }
  assert (E0 : forall y, exec_env y parent = lookup_last (ensure_env y parent)).
  { intros y. unfold exec_env, ensure_env. destruct (x_env y); reflexivity. }
  destruct v1 as [v1|]; rewrite IH by exact ND'; clear IH.
  - destruct (str_eqb k1 k) eqn:E.
    + rewrite (F eq_refl). apply str_eqb_eq in E. subst.
      unfold exec_env at 1. simpl. rewrite lookup_last_app.
      destruct (str_dec k k); [reflexivity|contradiction].
    + destruct (List.find _ l) as [[? ?]|]; [reflexivity|].
      unfold exec_env at 1. simpl. rewrite lookup_last_app, <- E0.
      destruct (str_dec k k1) as [->|]; [|reflexivity].
      rewrite str_eqb_refl in E. discriminate.
  - destruct (str_eqb k1 k) eqn:E.
    + rewrite (F eq_refl). apply str_eqb_eq in E. subst.
      unfold exec_env at 1. simpl. rewrite lookup_last_filter.
      destruct (str_dec k k); [reflexivity|contradiction].
    + destruct (List.find _ l) as [[? ?]|]; [reflexivity|].
      unfold exec_env at 1. simpl. rewrite lookup_last_filter, <- E0.
      destruct (str_dec k k1) as [->|]; [|reflexivity].
      rewrite str_eqb_refl in E. discriminate.
Qed.

Lemma copy_envs_rest parent x l :
  x_program (copy_envs parent x l) = x_program x /\
  x_args (copy_envs parent x l) = x_args x /\ x_cwd (copy_envs parent x l) = x_cwd x.
Proof.
  revert x; induction l as [|[k [v|]] l IH]; intros x; simpl; auto;
    destruct (IH (x_set_env parent x k v)) || destruct (IH (x_env_remove parent x k)); simpl in *; tauto.
Qed.

Lemma to_exec_spec parent c :
  NoDup (map fst (c_envs c)) ->
  x_program (to_exec parent c) = c_program c /\
  x_args (to_exec parent c) = c_args c /\
  x_cwd (to_exec parent c) = c_cwd c /\
  forall k, exec_env (to_exec parent c) parent k = command_env c (lookup_last parent) k.
Proof.
  intros ND. unfold to_exec.
  set (x0 := {| x_program := c_program c; x_args := c_args c; x_env := None; x_cwd := None |}).
  destruct (copy_envs_rest parent x0 (c_envs c)) as (H1 & H2 & H3).
  assert (H4 : forall k, exec_env (copy_envs parent x0 (c_envs c)) parent k
                    = command_env c (lookup_last parent) k).
  { intros k. rewrite copy_envs_env by exact ND. reflexivity. }
  destruct (c_cwd c) as [p|] eqn:E; simpl; auto.
Qed.

Lemma lookup_last_extend l1 l2 k :
  lookup_last (l1 ++ l2) k = env_extend l2 (lookup_last l1) k.
Proof.
  revert l1; induction l2 as [|[k2 v2] l2 IH]; intros l1; simpl.
  - now rewrite app_nil_r.
  - replace (l1 ++ (k2, v2) :: l2) with ((l1 ++ [(k2, v2)]) ++ l2)
      by (rewrite <- app_assoc; reflexivity).
    rewrite IH. clear IH.
    assert (H : forall e e' : env, (forall k, e k = e' k) -> forall k, env_extend l2 e k = env_extend l2 e' k).
    { clear. induction l2 as [|[a b] l2 IH]; intros e e' H k; simpl; auto.
      apply IH. intros k'. unfold env_set. destruct (str_dec k' a); auto. }
    apply H. intros k'. rewrite lookup_last_app. reflexivity.
Qed.

Lemma x_env_extend_env parent x l k :
  exec_env (x_env_extend parent x l) parent k = env_extend l (exec_env x parent) k.
Proof.
  unfold exec_env at 1. simpl. rewrite lookup_last_extend.
  unfold exec_env, ensure_env. destruct (x_env x); reflexivity.
Qed.
