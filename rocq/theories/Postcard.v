(** The default format: postcard 1.1.3 (external), reading through its [IOReader] with a
    buffer of [SLIDING_BUFFER_SIZE] bytes (internal/src/serde_format.rs:7-11, 53-58, 70-76).

    Two details of the crate are left open, so that the results hold either way:
    [eof_zero]: [pop] at the end of the input gives 0 instead of an error ([IOReader::pop]
    ignores how many bytes [Read::read] delivered);
    [sticky]: what is taken from the buffer for a string, float or character stays taken
    (instead of being reused for the next one). *)
From Coq Require Import List Ascii String Bool Arith Lia NArith ZArith ZifyBool ZifyN ZifyNat.
From Verif Require Import Base Utf8 Serde SerdeFacts.
Import ListNotations.
Local Open Scope nat_scope.

(** postcard's varints: seven bits per byte, least significant first. *)
Fixpoint leb (f : nat) (n : N) : bytes :=
  match f with
  | 0 => []
  | S f => if (n <? 128)%N then [ascii_of_N n] else ascii_of_N (n mod 128 + 128) :: leb f (n / 128)
  end.

(** [varint_max::<T>()] and [max_of_last_byte::<T>()]. *)
Definition varint_max (w : width) : nat := match w with W16 => 3 | W32 => 5 | W64 => 10 | W128 => 19 end.
Definition last_max (w : width) : N := match w with W16 => 3 | W32 => 15 | W64 => 1 | W128 => 3 end.

(** The first character of a string. *)
Fixpoint take_cont (s : bytes) : bytes :=
  match s with
  | a :: r => if is_cont a then a :: take_cont r else []
  | [] => []
  end.
Definition first_char (s : bytes) : option bytes :=
  match s with a :: r => Some (a :: take_cont r) | [] => None end.

Section Postcard.
  Variables (eof_zero sticky : bool).

  (** [IOReader::pop]. *)
  Definition pop : rd ascii := fun '(s, b) =>
    match s with
    | a :: s' => Ok a (s', b)
    | [] => if eof_zero then Ok (ascii_of_N 0) ([], b) else Fail
    end.

  Definition spend (b a : N) : option N := if (a <=? b)%N then Some (if sticky then b - a else b)%N else None.

  (** [IOReader::try_take_n] and [try_take_n_temp]: [read_exact] into the buffer. *)
  Definition take (n : N) : rd bytes := fun '(s, b) =>
    match spend b n with
    | None => Fail
    | Some b' => if (N.of_nat (List.length s) <? n)%N then Fail
                 else Ok (firstn (N.to_nat n) s) (skipn (N.to_nat n) s, b')
    end.

  (** [try_take_varint_u16] etc.; the remaining number of bytes instead of the shift. *)
  Fixpoint varint (k : nat) (last : N) : rd N :=
    match k with
    | 0 => rfail
    | S k => rbind pop (fun a =>
        if (byte a <? 128)%N then
          (if (k =? 0) && (last <? byte a)%N then rfail else rret (byte a))
        else rbind (varint k last) (fun r => rret (byte a - 128 + 128 * r)%N))
    end.

  Definition uvarint (w : width) : rd N := varint (varint_max w) (last_max w).

  (** [deserialize_char]. *)
  Definition get_char : rd bytes := rbind (uvarint W64) (fun n =>
    if (4 <? n)%N then rfail
    else rbind (take n) (fun s =>
      if valid_utf8 s then match first_char s with Some u => rret u | None => rfail end else rfail)).

  Definition postcard : codec := {|
    c_uint := leb 19;
    c_char := fun u => leb 19 (N.of_nat (List.length u)) ++ u;
    d_byte := pop; d_uint := uvarint; d_char := get_char; d_block := take;
    c_spend := spend; k_byte := []; k_uint := fun _ => []; k_char := fun u => [N.of_nat (List.length u)];
  |}.

  (** ** Laws *)

  Lemma byte_of_N n : (n < 256)%N -> byte (ascii_of_N n) = n.
  Proof. intros H. unfold byte. now apply N_ascii_embedding. Qed.

  Lemma reads_varint (last : N) : (last < 128)%N -> forall k f n, 1 <= k -> k <= f ->
    (n < 128 ^ N.of_nat (pred k) * (last + 1))%N -> reads postcard (varint k last) (leb f n) [] n.
  Proof.
    intros LB. induction k as [|k IH]; intros f n K F H; [lia|]. destruct f as [|f]; [lia|]. cbn [pred] in H.
    intros rest b. cbn [varint leb]. destruct (n <? 128)%N eqn:E.
    - cbn [app]. unfold rbind, pop. rewrite byte_of_N by lia. rewrite E.
      destruct (k =? 0) eqn:K0; [|reflexivity]. assert (k = 0) by lia. subst k. cbn [N.of_nat N.pow] in H.
      assert ((last <? n)%N = false) by lia. rewrite H0. reflexivity.
    - cbn [app]. unfold rbind at 1, pop at 1. pose proof (N.mod_lt n 128 ltac:(lia)). rewrite byte_of_N by lia.
      destruct (n mod 128 + 128 <? 128)%N eqn:E2; [lia|].
      assert (K1 : 1 <= k).
      { destruct k; [|lia]. cbn [N.of_nat N.pow] in H. lia. }
      unfold rbind. rewrite (IH f (n / 128)%N); [|exact K1|lia|].
      + cbn [spends]. unfold rret. f_equal. pose proof (N.div_mod n 128 ltac:(lia)). lia.
      + destruct k as [|k]; [lia|]. cbn [pred]. replace (N.of_nat (S k)) with (N.succ (N.of_nat k)) in H by lia.
        rewrite N.pow_succ_r' in H. apply N.div_lt_upper_bound; lia.
  Qed.

  Lemma bits_eq w : (128 ^ N.of_nat (pred (varint_max w)) * (last_max w + 1) = 2 ^ bits w)%N.
  Proof. destruct w; reflexivity. Qed.

  Lemma reads_uvarint w n : (n < 2 ^ bits w)%N -> reads postcard (uvarint w) (leb 19 n) [] n.
  Proof.
    intros H. apply reads_varint; [destruct w; reflexivity|destruct w; cbn; lia|destruct w; cbn; lia|]. now rewrite bits_eq.
  Qed.

  Lemma firstn_len {A} (s t : list A) : firstn (List.length s) (s ++ t) = s /\ skipn (List.length s) (s ++ t) = t.
  Proof. split; [rewrite firstn_app, Nat.sub_diag, firstn_all; apply app_nil_r|]. rewrite skipn_app, Nat.sub_diag, skipn_all. reflexivity. Qed.

  Lemma reads_take s : reads postcard (take (N.of_nat (List.length s))) s [N.of_nat (List.length s)] s.
  Proof.
    intros rest b. unfold take. cbn [spends c_spend postcard]. destruct (spend b (N.of_nat (List.length s))) as [b'|]; [|reflexivity].
    rewrite app_length. destruct (N.of_nat (List.length s + List.length rest) <? N.of_nat (List.length s))%N eqn:E; [lia|].
    rewrite Nnat.Nat2N.id. destruct (firstn_len s rest) as [-> ->]. reflexivity.
  Qed.

  Lemma cont_not_first a s : is_cont a = true -> valid_utf8 (a :: s) = false.
  Proof.
    intros H. cbn [valid_utf8]. unfold is_cont, in_range in H.
    destruct (byte a <? 128)%N eqn:E; [lia|]. destruct s as [|c1 r1]; [reflexivity|].
    destruct (in_range 194 223 a) eqn:E1; [unfold in_range in E1; lia|]. destruct r1 as [|c2 r2]; [reflexivity|].
    destruct (in_range 224 239 a) eqn:E2; [unfold in_range in E2; lia|]. destruct r2 as [|c3 r3]; [reflexivity|].
    destruct (in_range 240 244 a) eqn:E3; [unfold in_range in E3; lia|reflexivity].
  Qed.

  Lemma take_cont_all r t : Forall (fun d => is_cont d = true) r -> (forall a t', t = a :: t' -> is_cont a = false) -> take_cont (r ++ t) = r.
  Proof.
    intros F H. induction F as [|a r A F IH]; cbn [app take_cont].
    - destruct t as [|a t]; [reflexivity|]. cbn [take_cont]. now rewrite (H a t eq_refl).
    - now rewrite A, IH.
  Qed.

  Lemma first_char_one s u : valid_utf8 s = true -> first_char s = Some u -> one_char u.
  Proof.
    intros V. revert u. pattern s. revert s V. apply valid_utf8_ind; [discriminate|].
    intros w s N V _ T Hd U u F. destruct w as [|a r]; [contradiction|]. cbn [app first_char] in F. injection F as <-.
    cbn [tl] in T.
    assert (FR : Forall (fun d => is_cont d = true) r) by now apply Forall_forall.
    rewrite take_cont_all; [|exact FR|].
    - split; [|now exists a, r]. rewrite <- (app_nil_r (a :: r)), U. reflexivity.
    - intros d s' ->. destruct (is_cont d) eqn:D; [|reflexivity]. now rewrite cont_not_first in V.
  Qed.

  Lemma one_char_first u : one_char u -> first_char u = Some u.
  Proof.
    intros (_ & a & r & -> & F). cbn [first_char]. f_equal. f_equal. rewrite <- (app_nil_r r) at 1. apply take_cont_all; [exact F|discriminate].
  Qed.

  Lemma cont_head a r : Forall (fun d => is_cont d = true) (a :: r) -> valid_utf8 (a :: r) = false.
  Proof. intros F. apply cont_not_first. now inversion F. Qed.

  Lemma one_char_len u : one_char u -> 1 <= List.length u <= 4.
  Proof.
    intros (V & a & r & -> & F). split; [cbn; lia|].
    destruct r as [|c1 r1]; [cbn; lia|]. pose proof (Forall_inv_tail F) as F1.
    destruct r1 as [|c2 r2]; [cbn; lia|]. pose proof (Forall_inv_tail F1) as F2.
    destruct r2 as [|c3 r3]; [cbn; lia|]. pose proof (Forall_inv_tail F2) as F3.
    destruct r3 as [|c4 r4]; [cbn; lia|]. exfalso. cbn [valid_utf8] in V.
    assert (B : forall d r, Forall (fun d => is_cont d = true) (d :: r) -> valid_utf8 (d :: r) = false) by apply cont_head.
    pose proof (B _ _ F) as V1. pose proof (B _ _ F1) as V2. pose proof (B _ _ F2) as V3. pose proof (B _ _ F3) as V4.
    cbn [valid_utf8] in V1, V2, V3, V4.
    destruct (byte a <? 128)%N; [congruence|]. destruct (in_range 194 223 a).
    { apply andb_true_iff in V as [_ V]. congruence. }
    destruct (in_range 224 239 a).
    { apply andb_true_iff in V as [_ V]. congruence. }
    apply andb_true_iff in V as [_ V]. congruence.
  Qed.

  Lemma reads_char u : one_char u -> reads postcard get_char (leb 19 (N.of_nat (List.length u)) ++ u) [N.of_nat (List.length u)] u.
  Proof.
    intros O. pose proof (one_char_len u O) as L. unfold get_char.
    change [N.of_nat (List.length u)] with ([] ++ [N.of_nat (List.length u)]).
    eapply reads_bind; [apply (reads_uvarint W64); cbn [bits]; lia|]. cbn beta.
    destruct (4 <? N.of_nat (List.length u))%N eqn:E; [lia|]. eapply reads_if; [apply reads_take|].
    rewrite (one_char_first u O). now rewrite (proj1 O).
  Qed.

  Theorem postcard_laws : laws postcard.
  Proof.
    split.
    - intros a rest b. reflexivity.
    - intros w n H. now apply reads_uvarint.
    - exact reads_char.
    - exact reads_take.
  Qed.

  (** ** Arbitrary input *)

  Lemma pop_consumes : consumes pop.
  Proof.
    intros [|a0 s] b a s' b' E; cbn in E.
    - destruct eof_zero; [|discriminate]. injection E as <- <- <-. now exists [].
    - injection E as <- <- <-. now exists [a0].
  Qed.
  Lemma varint_consumes last k : consumes (varint k last).
  Proof.
    induction k as [|k IH]; [apply consumes_fail|]. cbn [varint]. apply consumes_bind; [apply pop_consumes|]. intros a.
    destruct (byte a <? 128)%N; [destruct (_ && _); [apply consumes_fail|apply consumes_ret]|].
    apply consumes_bind; [exact IH|]. intros r. apply consumes_ret.
  Qed.
  Lemma take_consumes n : consumes (take n).
  Proof.
    intros s b a s' b' E. unfold take in E. destruct (spend b n); [|discriminate]. destruct (_ <? _)%N; [discriminate|].
    injection E as <- <- <-. exists (firstn (N.to_nat n) s). symmetry. apply firstn_skipn.
  Qed.
  Lemma char_consumes : consumes get_char.
  Proof.
    unfold get_char. apply consumes_bind; [apply varint_consumes|]. intros n. destruct (4 <? n)%N; [apply consumes_fail|].
    apply consumes_bind; [apply take_consumes|]. intros s. destruct (valid_utf8 s); [|apply consumes_fail].
    destruct (first_char s); [apply consumes_ret|apply consumes_fail].
  Qed.

  Lemma pop_over : never_over pop.
  Proof. intros [[|a s] b]; cbn; [destruct eof_zero|]; discriminate. Qed.
  Lemma varint_over last k : never_over (varint k last).
  Proof.
    induction k as [|k IH]; intros s; [discriminate|]. cbn [varint]. apply over_bind; [apply pop_over|]. intros a s1 _.
    destruct (byte a <? 128)%N; [destruct (_ && _); discriminate|]. apply over_bind; [apply IH|discriminate].
  Qed.
  Lemma take_over n : never_over (take n).
  Proof. intros [s b]. unfold take. destruct (spend b n); [|discriminate]. destruct (_ <? _)%N; discriminate. Qed.
  Lemma char_over : never_over get_char.
  Proof.
    intros s. unfold get_char. apply over_bind; [apply varint_over|]. intros n s1 _. destruct (4 <? n)%N; [discriminate|].
    apply over_bind; [apply take_over|]. intros u s2 _. destruct (valid_utf8 u); [|discriminate]. destruct (first_char u); discriminate.
  Qed.

  Lemma varint_fits (last : N) : (last < 128)%N -> forall k, yields (fun n => n < 128 ^ N.of_nat (pred k) * (last + 1))%N (varint k last).
  Proof.
    intros LB. induction k as [|k IH]; intros s n s' E; [discriminate|]. cbn [varint] in E.
    apply rbind_ok in E as (a & s1 & _ & E). cbn [pred].
    assert (P : (1 <= 128 ^ N.of_nat (pred k))%N) by (pose proof (N.pow_nonzero 128 (N.of_nat (pred k))); lia).
    destruct (byte a <? 128)%N eqn:B.
    - destruct ((k =? 0) && (last <? byte a)%N) eqn:K; [discriminate|]. injection E as <- <-.
      destruct k as [|k]; [cbn [N.of_nat N.pow]; cbn in K; lia|]. cbn [pred] in P.
      replace (N.of_nat (S k)) with (N.succ (N.of_nat k)) by lia. rewrite N.pow_succ_r'. nia.
    - apply rbind_ok in E as (r & s2 & E2 & E). injection E as <- <-.
      destruct k as [|k]; [discriminate|]. apply IH in E2. cbn [pred] in *.
      replace (N.of_nat (S k)) with (N.succ (N.of_nat k)) by lia. rewrite N.pow_succ_r'.
      assert (byte a < 256)%N by (unfold byte; apply N_ascii_bounded). cbn beta in E2. rewrite <- N.mul_assoc. remember (128 ^ N.of_nat k * (last + 1))%N as X. clear HeqX. match goal with |- (_ + ?m < _)%N => change m with (128 * r)%N end. lia.
  Qed.

  Theorem postcard_sane : sane postcard.
  Proof.
    split; cbn [d_byte d_uint d_char d_block postcard].
    - apply pop_consumes.
    - intros w. apply varint_consumes.
    - apply char_consumes.
    - apply take_consumes.
    - apply pop_over.
    - intros w. apply varint_over.
    - apply char_over.
    - apply take_over.
    - intros w s n s' E. apply varint_fits in E; [|destruct w; reflexivity]. now rewrite bits_eq in E.
    - intros s u s' E. unfold get_char in E. apply rbind_ok in E as (n & s1 & _ & E). destruct (4 <? n)%N; [discriminate|].
      apply rbind_ok in E as (x & s2 & _ & E). destruct (valid_utf8 x) eqn:V; [|discriminate].
      destruct (first_char x) as [y|] eqn:F; [|discriminate]. injection E as <- <-. eapply first_char_one; eauto.
    - intros n [s b] x [s' b'] E. unfold take in E. destruct (spend b n); [|discriminate].
      destruct (N.of_nat (List.length s) <? n)%N eqn:L; [discriminate|]. injection E as <- <- <-.
      rewrite firstn_length_le by lia. lia.
  Qed.

  Hypothesis NZ : eof_zero = false.

  Lemma pop_extends : extends pop.
  Proof. intros [|a0 s] b a s' b' more E; cbn in *; [rewrite NZ in E; discriminate|]. injection E as <- <- <-. reflexivity. Qed.
  Lemma pop_consumes1 : consumes1 pop.
  Proof.
    intros [|a0 s] b a s' b' E; cbn in *; [rewrite NZ in E; discriminate|]. injection E as <- <- <-. exists [a0]. split; [reflexivity|discriminate].
  Qed.
  Lemma varint_extends last k : extends (varint k last).
  Proof.
    induction k as [|k IH]; [apply extends_fail|]. cbn [varint]. apply extends_bind; [apply pop_extends|]. intros a.
    destruct (byte a <? 128)%N; [destruct (_ && _); [apply extends_fail|apply extends_ret]|].
    apply extends_bind; [exact IH|]. intros r. apply extends_ret.
  Qed.
  Lemma varint_consumes1 last k : consumes1 (varint k last).
  Proof.
    destruct k as [|k]; [intros s b a s' b' E; discriminate|]. cbn [varint]. apply consumes1_bind_l; [apply pop_consumes1|]. intros a.
    destruct (byte a <? 128)%N; [destruct (_ && _); [apply consumes_fail|apply consumes_ret]|].
    apply consumes_bind; [apply varint_consumes|]. intros r. apply consumes_ret.
  Qed.
  Lemma take_extends n : extends (take n).
  Proof.
    intros s b a s' b' more E. unfold take in *. destruct (spend b n) as [b2|]; [|discriminate].
    destruct (N.of_nat (List.length s) <? n)%N eqn:L; [discriminate|]. injection E as <- <- <-.
    rewrite app_length. destruct (N.of_nat (List.length s + List.length more) <? n)%N eqn:L2; [lia|].
    rewrite firstn_app, skipn_app. replace (N.to_nat n - List.length s) with 0 by lia. cbn [firstn skipn]. now rewrite app_nil_r.
  Qed.
  Lemma take_consumes1 n : n <> 0%N -> consumes1 (take n).
  Proof.
    intros N0 s b a s' b' E. unfold take in E. destruct (spend b n); [|discriminate].
    destruct (N.of_nat (List.length s) <? n)%N eqn:L; [discriminate|].
    injection E as <- <- <-. exists (firstn (N.to_nat n) s). split; [symmetry; apply firstn_skipn|].
    intros Z. apply (f_equal (@List.length ascii)) in Z. rewrite firstn_length_le in Z by lia. cbn in Z. lia.
  Qed.

  Theorem postcard_strict : strict postcard.
  Proof.
    split; cbn [d_byte d_uint d_char d_block postcard].
    - apply pop_extends.
    - intros w. apply varint_extends.
    - unfold get_char. apply extends_bind; [apply varint_extends|]. intros n. destruct (4 <? n)%N; [apply extends_fail|].
      apply extends_bind; [apply take_extends|]. intros s. destruct (valid_utf8 s); [|apply extends_fail].
      destruct (first_char s); [apply extends_ret|apply extends_fail].
    - apply take_extends.
    - apply pop_consumes1.
    - intros w. apply varint_consumes1.
    - unfold get_char. apply consumes1_bind_l; [apply varint_consumes1|]. intros n. destruct (4 <? n)%N; [apply consumes_fail|].
      apply consumes_bind; [apply take_consumes|]. intros s. destruct (valid_utf8 s); [|apply consumes_fail].
      destruct (first_char s); [apply consumes_ret|apply consumes_fail].
    - apply take_consumes1.
  Qed.
End Postcard.

(** internal/src/serde_format.rs:11. *)
Definition SLIDING_BUFFER_SIZE : N := 2048.

(** internal/src/serde_format.rs:34-59 [serialize] (the writer is a [Vec], which does not fail). *)
Definition serialize (eof_zero sticky : bool) (v : val) : bytes := enc (postcard eof_zero sticky) v.

(** internal/src/serde_format.rs:61-79 [deserialize], on a stack of depth [f]. *)
Inductive deserialized := Value (v : val) | NoValue | StackOverflow.
Definition deserialize (eof_zero sticky : bool) (env : nat -> ty) (f : nat) (t : ty) (s : bytes) : deserialized :=
  match dec (postcard eof_zero sticky) env f t (s, SLIDING_BUFFER_SIZE) with
  | Ok v _ => Value v
  | Fail => NoValue
  | Over => StackOverflow
  end.
