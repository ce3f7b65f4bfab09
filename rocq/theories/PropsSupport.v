(** C94 and C95: supporting code. *)
From Coq Require Import List Ascii String Bool Arith NArith Lia.
From Verif Require Import Base SelfTy Support.
Import ListNotations.
Local Open Scope nat_scope.

Definition error_of {T E} (r : T + E) : option E := match r with inl _ => None | inr e => Some e end.

Lemma retry_loop_spec {T E} (op : nat -> T + E) n : forall k i, i + k = n -> 1 <= k ->
  (exists j t, j < k /\ (forall m, m < j -> exists e, op (i + S m) = inr e) /\ op (i + S j) = inl t /\
     snd (retry_loop op n i k) = Ret (inl t) /\
     exists ws, fst (retry_loop op n i k) = map Warn ws ++ [Info t] /\ map Some ws = map (fun m => error_of (op (i + S m))) (seq 0 j)) \/
  (exists e, (forall m, m < k -> exists e, op (i + S m) = inr e) /\ op n = inr e /\ snd (retry_loop op n i k) = Ret (inr e) /\
     exists ws, fst (retry_loop op n i k) = map Warn ws ++ [Error e] /\ map Some ws = map (fun m => error_of (op (i + S m))) (seq 0 (k - 1))).
Proof.
  induction k as [|k IH]; intros i N K; [lia|]. cbn [retry_loop]. destruct (op (S i)) as [t|e] eqn:O.
  - left. exists 0, t. replace (i + 1) with (S i) by lia. split; [lia|]. split; [lia|]. split; [exact O|]. split; [reflexivity|]. exists []. auto.
  - destruct (S i <? n) eqn:L.
    + apply Nat.ltb_lt in L. destruct (retry_loop op n (S i) k) as [l r] eqn:R. cbn [fst snd].
      destruct (IH (S i) ltac:(lia) ltac:(lia)) as [(j & t & J & B & Oj & Rj & ws & W & M)|(e' & B & Oe & Re & ws & W & M)]; rewrite R in *; cbn [fst snd] in *.
      * left. exists (S j), t. split; [lia|]. split; [|split; [|split]].
        -- intros [|m] Hm; [exists e; now replace (i + 1) with (S i) by lia|]. destruct (B m ltac:(lia)) as (e2 & E2). exists e2. now replace (i + S (S m)) with (S i + S m) by lia.
        -- now replace (i + S (S j)) with (S i + S j) by lia.
        -- exact Rj.
        -- exists (e :: ws). split; [now rewrite W|]. cbn [map seq]. f_equal; [replace (i + 1) with (S i) by lia; now rewrite O|].
           rewrite M, <- seq_shift, map_map. apply map_ext. intros m. do 2 f_equal. lia.
      * right. exists e'. split; [|split; [exact Oe|split; [exact Re|]]].
        -- intros [|m] Hm; [exists e; now replace (i + 1) with (S i) by lia|]. destruct (B m ltac:(lia)) as (e2 & E2). exists e2. now replace (i + S (S m)) with (S i + S m) by lia.
        -- exists (e :: ws). split; [now rewrite W|]. replace (S k - 1) with (S (k - 1)) by lia. cbn [map seq]. f_equal; [replace (i + 1) with (S i) by lia; now rewrite O|].
           rewrite M, <- seq_shift, map_map. apply map_ext. intros m. do 2 f_equal. lia.
    + apply Nat.ltb_ge in L. assert (k = 0) by lia. subst k. right. exists e. assert (n = S i) by lia. subst n.
      split; [intros m Hm; assert (m = 0) by lia; subst m; exists e; now replace (i + 1) with (S i) by lia|]. split; [replace (i + 1) with (S i) by lia; exact O|]. split; [reflexivity|]. exists []. auto.
Qed.

(** A test is retried until its first success, at most [n] times; the result is that success or
    the last error, every earlier error is logged as a warning, and the end is reached only by
    asking for no attempt at all. *)
Theorem C94_retry :
  forall (T E : Type) (n : nat) (op : nat -> T + E),
    (n = 0 /\ retry n op = ([], Panic)) \/
    (exists j t, 1 <= j <= n /\ (forall m, 1 <= m < j -> exists e, op m = inr e) /\ op j = inl t /\
       exists ws, retry n op = (map Warn ws ++ [Info t], Ret (inl t)) /\ map Some ws = map (fun m => error_of (op m)) (seq 1 (j - 1))) \/
    (exists e, 1 <= n /\ (forall m, 1 <= m <= n -> exists e, op m = inr e) /\ op n = inr e /\
       exists ws, retry n op = (map Warn ws ++ [Error e], Ret (inr e)) /\ map Some ws = map (fun m => error_of (op m)) (seq 1 (n - 1))).
Proof.
  intros T E n op. unfold retry. destruct n as [|n]; [left; auto|]. right. cbn [Nat.leb].
  destruct (retry_loop_spec op (S n) (S n) 0 eq_refl ltac:(lia)) as [(j & t & J & B & O & R & ws & W & M)|(e & B & O & R & ws & W & M)]; destruct (retry_loop _ _ _ _) as [l r]; cbn [fst snd] in *; subst l r.
  - left. exists (S j), t. split; [lia|]. split; [intros [|m] Hm; [lia|]; apply (B m); lia|]. split; [exact O|]. exists ws. split; [reflexivity|].
    rewrite M. replace (S j - 1) with j by lia. rewrite <- seq_shift, map_map. reflexivity.
  - right. exists e. split; [lia|]. split; [intros [|m] Hm; [lia|]; apply (B m); lia|]. split; [exact O|]. exists ws. split; [reflexivity|].
    rewrite M, <- seq_shift, map_map. reflexivity.
Qed.
Print Assumptions C94_retry.

Example C94_example :
  let op i := if i <? 3 then inr (lit "no") else inl i in
  retry 5 op = ([Warn (lit "no"); Warn (lit "no"); Info 3], Ret (inl 3)) /\ retry 2 op = ([Warn (lit "no"); Error (lit "no")], Ret (inr (lit "no"))).
Proof. split; reflexivity. Qed.

(** The expansion is printed exactly if the macro was compiled with TEST_FUZZ_LOG set to 1 or to
    the name of the crate, and is the same whether it is printed or not. *)
Theorem C95_log :
  forall (X : Type) (var krate : option str) (format : X -> option str) (x : X),
    let wanted := var = Some (lit "1") \/ (exists v, var = Some v /\ krate = Some v) in
    let unknown := krate = None /\ exists v, var = Some v /\ v <> lit "1" in
    (forall s, logged_expansion var krate format x = Ret (Some s, x) <-> wanted /\ format x = Some s) /\
    (logged_expansion var krate format x = Ret (None, x) <-> ~ wanted /\ ~ unknown) /\
    (logged_expansion var krate format x = Panic <-> (wanted /\ format x = None) \/ unknown) /\
    (forall p y, logged_expansion var krate format x = Ret (p, y) -> y = x).
Proof.
  intros X var krate format x wanted unknown.
  assert (H : (wanted /\ ~ unknown /\ log_enabled var krate = Ret true) \/ (~ wanted /\ ~ unknown /\ log_enabled var krate = Ret false) \/
              (~ wanted /\ unknown /\ log_enabled var krate = Panic)).
  { unfold wanted, unknown, log_enabled. destruct var as [v|].
    2:{ right. left. split; [intros [E|(v & E & _)]; discriminate|]. split; [intros (_ & v & E & _); discriminate|reflexivity]. }
    destruct (str_eqb v (lit "1")) eqn:Q.
    { apply str_eqb_eq in Q. subst v. left. split; [now left|]. split; [|reflexivity]. intros (_ & w & E & N). congruence. }
    assert (N : v <> lit "1") by (intros ->; rewrite str_eqb_same in Q; discriminate).
    destruct krate as [k|].
    2:{ right. right. split; [intros [E|(w & _ & E)]; congruence|]. split; [eauto|reflexivity]. }
    destruct (str_eqb v k) eqn:K.
    - apply str_eqb_eq in K. subst k. left. split; [eauto|]. split; [intros (E & _); discriminate|reflexivity].
    - right. left. split; [|split; [intros (E & _); discriminate|reflexivity]]. intros [E|(w & E & F)]; [congruence|].
      assert (v = k) by congruence. subst k. rewrite str_eqb_same in K. discriminate. }
  clearbody wanted unknown. unfold logged_expansion. destruct H as [(W & U & ->)|[(W & U & ->)|(W & U & ->)]]; cbn [bind].
  - destruct (format x) as [s|]; (split; [intros s'; split; [intros E; inversion E|intros [_ E]; congruence]; auto|]); (split; [split; [discriminate|tauto]|]);
      (split; [split; [discriminate || auto|intros [[_ E]|E]; congruence || tauto || reflexivity]|]); intros p y E; now inversion E.
  - split; [intros s; split; [discriminate|tauto]|]. split; [tauto|]. split; [split; [discriminate|tauto]|]. intros p y E. now inversion E.
  - split; [intros s; split; [discriminate|tauto]|]. split; [split; [discriminate|tauto]|]. split; [tauto|]. discriminate.
Qed.
Print Assumptions C95_log.

Example C95_example :
  logged_expansion (Some (lit "my_crate")) (Some (lit "my_crate")) (fun s => Some s) (lit "fn f() {}") = Ret (Some (lit "fn f() {}"), lit "fn f() {}") /\
  logged_expansion (Some (lit "my_crate")) (Some (lit "other")) (fun s => Some s) (lit "fn f() {}") = Ret (None, lit "fn f() {}") /\
  logged_expansion (Some (lit "0")) None (fun s => Some s) (lit "fn f() {}") = Panic.
Proof. repeat split. Qed.
