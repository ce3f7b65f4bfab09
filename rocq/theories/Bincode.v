(** The alternative format: bincode 2.0.1 (external) with its standard configuration and a
    limit of one gibibyte (internal/src/serde_format.rs:4-5, 35-50, 63-68). *)
From Coq Require Import List Ascii String Bool Arith Lia NArith ZArith ZifyBool ZifyN ZifyNat.
From Verif Require Import Base Utf8 Serde SerdeFacts Postcard.
Import ListNotations.
Local Open Scope nat_scope.

(** Little-endian bytes. *)
Fixpoint le (k : nat) (n : N) : bytes :=
  match k with 0 => [] | S k => ascii_of_N (n mod 256) :: le k (n / 256) end.
Fixpoint unle (s : bytes) : N := match s with [] => 0 | a :: s => byte a + 256 * unle s end%N.

(** [varint_encode_u64] etc.: the smallest of five forms. *)
Definition varint_encode (n : N) : bytes :=
  if (n <? 251)%N then [ascii_of_N n]
  else if (n <? 2 ^ 16)%N then ascii_of_N 251 :: le 2 n
  else if (n <? 2 ^ 32)%N then ascii_of_N 252 :: le 4 n
  else if (n <? 2 ^ 64)%N then ascii_of_N 253 :: le 8 n
  else ascii_of_N 254 :: le 16 n.

(** Size in bytes of an integer type. *)
Definition size_of (w : width) : N := (bits w / 8)%N.

(** [claim_bytes_read]. *)
Definition claim (n : N) : rd unit := fun '(s, b) => if (n <=? b)%N then Ok tt (s, (b - n)%N) else Fail.
(** [Reader::read], an exact read. *)
Definition raw (n : nat) : rd bytes := fun '(s, b) =>
  if List.length s <? n then Fail else Ok (firstn n s) (skipn n s, b).
Definition raw_byte : rd ascii := pop false.

(** [u8::decode]. *)
Definition byte_decode : rd ascii := rbind (claim 1) (fun _ => raw_byte).

(** [varint_decode_u16] etc.; a form too wide for the type is rejected. *)
Definition varint_decode (w : width) : rd N := rbind raw_byte (fun a =>
  let get (k : nat) (need : N) := if (need <=? bits w)%N then rbind (raw k) (fun s => rret (unle s)) else rfail in
  if (byte a <? 251)%N then rret (byte a)
  else if (byte a =? 251)%N then get 2 16%N
  else if (byte a =? 252)%N then get 4 32%N
  else if (byte a =? 253)%N then get 8 64%N
  else if (byte a =? 254)%N then get 16 128%N
  else rfail).

(** [u16::decode] etc.: the full size of the type is claimed, not that of the encoding. *)
Definition uint_decode (w : width) : rd N := rbind (claim (size_of w)) (fun _ => varint_decode w).

(** [utf8_char_width]. *)
Definition char_width (a : ascii) : nat :=
  if (byte a <? 128)%N then 1
  else if in_range 194 223 a then 2
  else if in_range 224 239 a then 3
  else if in_range 240 244 a then 4
  else 0.

(** [char::decode]. *)
Definition char_decode : rd bytes := rbind raw_byte (fun a =>
  match char_width a with
  | 0 => rfail
  | S k => rbind (claim (N.of_nat (S k))) (fun _ => rbind (raw k) (fun r =>
           if valid_utf8 (a :: r) then match first_char (a :: r) with Some u => rret u | None => rfail end else rfail))
  end).

Definition bincode : codec := {|
  c_uint := varint_encode; c_char := fun u => u;
  d_byte := byte_decode; d_uint := uint_decode; d_char := char_decode;
  d_block := fun n => rbind (claim n) (fun _ => raw (N.to_nat n));
  c_spend := spend true;
  k_byte := [1%N]; k_uint := fun w => [size_of w]; k_char := fun u => [N.of_nat (List.length u)];
|}.

(** ** Laws *)

Lemma le_length k n : List.length (le k n) = k.
Proof. revert n. induction k as [|k IH]; intros n; [reflexivity|]. cbn [le List.length]. now rewrite IH. Qed.

Lemma unle_le k n : (n < 256 ^ N.of_nat k)%N -> unle (le k n) = n.
Proof.
  revert n. induction k as [|k IH]; intros n H; [cbn in *; lia|]. cbn [le unle].
  pose proof (N.mod_lt n 256 ltac:(lia)). rewrite byte_of_N by lia. rewrite IH.
  - pose proof (N.div_mod n 256 ltac:(lia)). lia.
  - replace (N.of_nat (S k)) with (N.succ (N.of_nat k)) in H by lia. rewrite N.pow_succ_r' in H. apply N.div_lt_upper_bound; lia.
Qed.

Lemma unle_fits s : (unle s < 256 ^ N.of_nat (List.length s))%N.
Proof.
  induction s as [|a s IH]; [reflexivity|]. cbn [unle List.length].
  replace (N.of_nat (S (List.length s))) with (N.succ (N.of_nat (List.length s))) by lia. rewrite N.pow_succ_r'.
  assert (byte a < 256)%N by (unfold byte; apply N_ascii_bounded). lia.
Qed.

Lemma reads_claim n : reads bincode (claim n) [] [n] tt.
Proof.
  intros rest b. cbn [app spends c_spend bincode]. unfold claim, spend. destruct (n <=? b)%N; reflexivity.
Qed.
Lemma reads_raw s : reads bincode (raw (List.length s)) s [] s.
Proof.
  intros rest b. unfold raw. rewrite app_length. destruct (_ <? _) eqn:E; [lia|].
  destruct (firstn_len s rest) as [-> ->]. reflexivity.
Qed.
Lemma reads_raw_byte a : reads bincode raw_byte [a] [] a.
Proof. intros rest b. reflexivity. Qed.

Lemma reads_bind0 {A B} (x : rd A) (f : A -> rd B) e1 a e2 k v :
  reads bincode x e1 [] a -> reads bincode (f a) e2 k v -> reads bincode (rbind x f) (e1 ++ e2) k v.
Proof. intros X F. exact (reads_bind bincode x f e1 [] a e2 k v X F). Qed.

Lemma reads_varint_decode w n : (n < 2 ^ bits w)%N -> reads bincode (varint_decode w) (varint_encode n) [] n.
Proof.
  intros H. unfold varint_encode, varint_decode.
  assert (G : forall t k need, (byte (ascii_of_N t) = t)%N -> (need <= bits w)%N -> (n < 256 ^ N.of_nat k)%N ->
            reads bincode (rbind (raw k) (fun s => rret (unle s))) (le k n) [] n).
  { intros t k need _ _ K. rewrite <- (le_length k n) at 1. eapply reads_if; [apply reads_raw|]. now rewrite unle_le. }
  destruct (n <? 251)%N eqn:E1.
  { eapply reads_if; [apply reads_raw_byte|]. cbn beta zeta. rewrite byte_of_N by lia. now rewrite E1. }
  assert (B : forall t, (t < 256)%N -> byte (ascii_of_N t) = t) by (intros; now apply byte_of_N).
  destruct (n <? 2 ^ 16)%N eqn:E2.
  { change (ascii_of_N 251 :: le 2 n) with ([ascii_of_N 251] ++ le 2 n).
    eapply reads_bind0; [apply reads_raw_byte|]. cbn beta zeta. rewrite B by lia. cbn [N.ltb N.eqb N.compare Pos.compare Pos.compare_cont Pos.eqb].
    destruct (16 <=? bits w)%N eqn:W; [|destruct w; discriminate]. apply (G 251%N 2 16%N); [apply B; lia|lia|]. change (256 ^ N.of_nat 2)%N with (2 ^ 16)%N. lia. }
  destruct (n <? 2 ^ 32)%N eqn:E3.
  { change (ascii_of_N 252 :: le 4 n) with ([ascii_of_N 252] ++ le 4 n).
    eapply reads_bind0; [apply reads_raw_byte|]. cbn beta zeta. rewrite B by lia. cbn [N.ltb N.eqb N.compare Pos.compare Pos.compare_cont Pos.eqb].
    destruct (32 <=? bits w)%N eqn:W; [|exfalso; destruct w; try discriminate; cbn [bits] in H; lia].
    apply (G 252%N 4 32%N); [apply B; lia|lia|]. change (256 ^ N.of_nat 4)%N with (2 ^ 32)%N. lia. }
  destruct (n <? 2 ^ 64)%N eqn:E4.
  { change (ascii_of_N 253 :: le 8 n) with ([ascii_of_N 253] ++ le 8 n).
    eapply reads_bind0; [apply reads_raw_byte|]. cbn beta zeta. rewrite B by lia. cbn [N.ltb N.eqb N.compare Pos.compare Pos.compare_cont Pos.eqb].
    destruct (64 <=? bits w)%N eqn:W; [|exfalso; destruct w; try discriminate; cbn [bits] in H; lia].
    apply (G 253%N 8 64%N); [apply B; lia|lia|]. change (256 ^ N.of_nat 8)%N with (2 ^ 64)%N. lia. }
  change (ascii_of_N 254 :: le 16 n) with ([ascii_of_N 254] ++ le 16 n).
  eapply reads_bind0; [apply reads_raw_byte|]. cbn beta zeta. rewrite B by lia. cbn [N.ltb N.eqb N.compare Pos.compare Pos.compare_cont Pos.eqb].
  destruct (128 <=? bits w)%N eqn:W; [|exfalso; destruct w; try discriminate; cbn [bits] in H; lia].
  apply (G 254%N 16 128%N); [apply B; lia|lia|]. change (256 ^ N.of_nat 16)%N with (2 ^ 128)%N. destruct w; cbn [bits] in H; lia.
Qed.

Lemma char_width_len a r : one_char (a :: r) -> char_width a = S (List.length r).
Proof.
  intros O. pose proof (one_char_len _ O) as L. destruct O as (V & a' & r' & E & F). injection E as <- <-.
  unfold char_width.
  assert (B : forall d r, Forall (fun d => is_cont d = true) (d :: r) -> valid_utf8 (d :: r) = false) by apply cont_head.
  cbn [valid_utf8] in V. destruct (byte a <? 128)%N.
  { destruct r as [|d r]; [reflexivity|]. rewrite B in V by exact F. discriminate. }
  destruct r as [|c1 r1]; [discriminate|]. pose proof (Forall_inv_tail F) as F1.
  destruct (in_range 194 223 a).
  { destruct r1 as [|d r]; [reflexivity|]. rewrite B in V by exact F1. apply andb_true_iff in V as [_ V]. discriminate. }
  destruct r1 as [|c2 r2]; [discriminate|]. pose proof (Forall_inv_tail F1) as F2.
  destruct (in_range 224 239 a).
  { destruct r2 as [|d r]; [reflexivity|]. rewrite B in V by exact F2. apply andb_true_iff in V as [_ V]. discriminate. }
  destruct r2 as [|c3 r3]; [discriminate|]. pose proof (Forall_inv_tail F2) as F3.
  destruct (in_range 240 244 a); [|discriminate].
  destruct r3 as [|d r]; [reflexivity|]. cbn in L. lia.
Qed.

Theorem bincode_laws : laws bincode.
Proof.
  split.
  - intros a. cbn [d_byte k_byte bincode]. change [a] with ([] ++ [a]). change [1%N] with ([1] ++ [])%N.
    eapply reads_bind; [apply reads_claim|apply reads_raw_byte].
  - intros w n H. cbn [d_uint c_uint k_uint bincode]. change (varint_encode n) with ([] ++ varint_encode n). change [size_of w] with ([size_of w] ++ []).
    eapply reads_bind; [apply reads_claim|now apply reads_varint_decode].
  - intros u O. cbn [d_char c_char k_char bincode]. destruct u as [|a r]; [now destruct (one_char_len _ O)|].
    pose proof (char_width_len a r O) as W. unfold char_decode.
    refine (reads_bind0 raw_byte _ [a] a r _ (a :: r) (reads_raw_byte a) _). cbn beta. rewrite W. cbn iota.
    refine (reads_bind bincode (claim _) _ [] [N.of_nat (List.length (a :: r))] tt r [] (a :: r) (reads_claim _) _).
    cbn beta. eapply reads_if; [apply reads_raw|].
    rewrite (one_char_first _ O). now rewrite (proj1 O).
  - intros s. cbn [d_block bincode]. 
    refine (reads_bind bincode (claim _) _ [] [N.of_nat (List.length s)] tt s [] s (reads_claim _) _). rewrite Nnat.Nat2N.id. apply reads_raw.
Qed.

(** ** Arbitrary input *)

Lemma claim_consumes n : consumes (claim n).
Proof. intros s b a s' b' E. unfold claim in E. destruct (n <=? b)%N; [|discriminate]. injection E as <- <- <-. now exists []. Qed.
Lemma raw_consumes n : consumes (raw n).
Proof.
  intros s b a s' b' E. unfold raw in E. destruct (_ <? _); [discriminate|]. injection E as <- <- <-.
  exists (firstn n s). symmetry. apply firstn_skipn.
Qed.
Lemma claim_extends n : extends (claim n).
Proof. intros s b a s' b' more E. unfold claim in *. destruct (n <=? b)%N; [|discriminate]. now injection E as <- <- <-. Qed.
Lemma raw_extends n : extends (raw n).
Proof.
  intros s b a s' b' more E. unfold raw in *. destruct (List.length s <? n) eqn:L; [discriminate|]. injection E as <- <- <-.
  rewrite app_length. destruct (List.length s + List.length more <? n) eqn:L2; [lia|].
  rewrite firstn_app, skipn_app. replace (n - List.length s) with 0 by lia. cbn [firstn skipn]. now rewrite app_nil_r.
Qed.
Lemma claim_over n : never_over (claim n).
Proof. intros [s b]. unfold claim. destruct (n <=? b)%N; discriminate. Qed.
Lemma raw_over n : never_over (raw n).
Proof. intros [s b]. unfold raw. destruct (_ <? _); discriminate. Qed.

Lemma varint_decode_consumes w : consumes (varint_decode w).
Proof.
  unfold varint_decode. apply consumes_bind; [apply pop_consumes|]. intros a.
  assert (G : forall k need, consumes (if (need <=? bits w)%N then rbind (raw k) (fun s => rret (unle s)) else rfail)).
  { intros k need. destruct (need <=? bits w)%N; [|apply consumes_fail]. apply consumes_bind; [apply raw_consumes|intros s; apply consumes_ret]. }
  cbv zeta. destruct (byte a <? 251)%N; [apply consumes_ret|].
  repeat (match goal with |- consumes (if ?x then _ else _) => destruct x end; [apply G|]); apply consumes_fail.
Qed.
Lemma varint_decode_extends w : extends (varint_decode w).
Proof.
  unfold varint_decode. apply extends_bind; [now apply pop_extends|]. intros a.
  assert (G : forall k need, extends (if (need <=? bits w)%N then rbind (raw k) (fun s => rret (unle s)) else rfail)).
  { intros k need. destruct (need <=? bits w)%N; [|apply extends_fail]. apply extends_bind; [apply raw_extends|intros s; apply extends_ret]. }
  cbv zeta. destruct (byte a <? 251)%N; [apply extends_ret|].
  repeat (match goal with |- extends (if ?x then _ else _) => destruct x end; [apply G|]); apply extends_fail.
Qed.
Lemma varint_decode_over w : never_over (varint_decode w).
Proof.
  intros s. unfold varint_decode. apply over_bind; [apply pop_over|]. intros a s1 _.
  assert (G : forall k need s, (if (need <=? bits w)%N then rbind (raw k) (fun s => rret (unle s)) else rfail) s <> Over).
  { intros k need s2. destruct (need <=? bits w)%N; [|discriminate]. apply over_bind; [apply raw_over|discriminate]. }
  cbv zeta. destruct (byte a <? 251)%N; [discriminate|].
  repeat (match goal with |- (if ?x then _ else _) _ <> _ => destruct x end; [apply G|]); discriminate.
Qed.
Lemma varint_decode_fits w : yields (fun n => n < 2 ^ bits w)%N (varint_decode w).
Proof.
  intros s n s' E. unfold varint_decode in E. apply rbind_ok in E as (a & s1 & _ & E). cbv zeta in E.
  assert (P : (2 ^ 16 <= 2 ^ bits w)%N) by (apply N.pow_le_mono_r; [lia|destruct w; cbn; lia]).
  destruct (byte a <? 251)%N eqn:B; [injection E as <- <-; change (2 ^ 16)%N with 65536%N in P; lia|].
  assert (G : forall k need, (256 ^ N.of_nat k = 2 ^ need)%N ->
     (if (need <=? bits w)%N then rbind (raw k) (fun s => rret (unle s)) else rfail) s1 = Ok n s' -> (n < 2 ^ bits w)%N).
  { intros k need K G. destruct (need <=? bits w)%N eqn:W; [|discriminate]. apply rbind_ok in G as (x & [s2 b2] & G1 & G).
    injection G as <- <-. destruct s1 as [s1 b1]. unfold raw in G1. destruct (List.length s1 <? k) eqn:L; [discriminate|]. injection G1 as <- _ _.
    pose proof (unle_fits (firstn k s1)) as F. rewrite firstn_length_le in F by lia. rewrite K in F.
    assert (2 ^ need <= 2 ^ bits w)%N by (apply N.pow_le_mono_r; lia). lia. }
  destruct (byte a =? 251)%N; [eapply G; [|exact E]; reflexivity|].
  destruct (byte a =? 252)%N; [eapply G; [|exact E]; reflexivity|].
  destruct (byte a =? 253)%N; [eapply G; [|exact E]; reflexivity|].
  destruct (byte a =? 254)%N; [eapply G; [|exact E]; reflexivity|discriminate].
Qed.

Theorem bincode_sane : sane bincode.
Proof.
  split; cbn [d_byte d_uint d_char d_block bincode].
  - apply consumes_bind; [apply claim_consumes|]. intros _. apply pop_consumes.
  - intros w. apply consumes_bind; [apply claim_consumes|]. intros _. apply varint_decode_consumes.
  - unfold char_decode. apply consumes_bind; [apply pop_consumes|]. intros a. destruct (char_width a); [apply consumes_fail|].
    apply consumes_bind; [apply claim_consumes|]. intros _. apply consumes_bind; [apply raw_consumes|]. intros r.
    destruct (valid_utf8 _); [|apply consumes_fail]. destruct (first_char _); [apply consumes_ret|apply consumes_fail].
  - intros n. apply consumes_bind; [apply claim_consumes|]. intros _. apply raw_consumes.
  - intros s. apply over_bind; [apply claim_over|]. intros. apply pop_over.
  - intros w s. apply over_bind; [apply claim_over|]. intros. apply varint_decode_over.
  - intros s. unfold char_decode. apply over_bind; [apply pop_over|]. intros a s1 _. destruct (char_width a); [discriminate|].
    apply over_bind; [apply claim_over|]. intros _ s2 _. apply over_bind; [apply raw_over|]. intros r s3 _.
    destruct (valid_utf8 _); [|discriminate]. destruct (first_char _); discriminate.
  - intros n s. apply over_bind; [apply claim_over|]. intros. apply raw_over.
  - intros w s n s' E. apply rbind_ok in E as (u & s1 & _ & E). exact (varint_decode_fits w _ _ _ E).
  - intros s u s' E. unfold char_decode in E. apply rbind_ok in E as (a & s1 & _ & E). destruct (char_width a); [discriminate|].
    apply rbind_ok in E as (x & s2 & _ & E). apply rbind_ok in E as (r & s3 & _ & E). destruct (valid_utf8 _) eqn:V; [|discriminate].
    destruct (first_char _) as [y|] eqn:F; [|discriminate]. injection E as <- <-. eapply first_char_one; eauto.
  - intros n s x s' E. apply rbind_ok in E as (u & [s1 b1] & _ & E). unfold raw in E. destruct (List.length s1 <? N.to_nat n) eqn:L; [discriminate|].
    injection E as <- <-. rewrite firstn_length_le by lia. lia.
Qed.

Theorem bincode_strict : strict bincode.
Proof.
  split; cbn [d_byte d_uint d_char d_block bincode].
  - apply extends_bind; [apply claim_extends|]. intros _. now apply pop_extends.
  - intros w. apply extends_bind; [apply claim_extends|]. intros _. apply varint_decode_extends.
  - unfold char_decode. apply extends_bind; [now apply pop_extends|]. intros a. destruct (char_width a); [apply extends_fail|].
    apply extends_bind; [apply claim_extends|]. intros _. apply extends_bind; [apply raw_extends|]. intros r.
    destruct (valid_utf8 _); [|apply extends_fail]. destruct (first_char _); [apply extends_ret|apply extends_fail].
  - intros n. apply extends_bind; [apply claim_extends|]. intros _. apply raw_extends.
  - intros s b a s' b' E. apply rbind_ok in E as (u & [s1 b1] & E1 & E). apply claim_consumes in E1 as [p ->].
    apply pop_consumes1 in E as (q & -> & N); [|reflexivity]. exists (p ++ q). split; [now rewrite app_assoc|]. destruct p; [exact N|discriminate].
  - intros w s b a s' b' E. apply rbind_ok in E as (u & [s1 b1] & E1 & E). apply claim_consumes in E1 as [p ->].
    unfold varint_decode in E.
    assert (C1 : consumes1 (varint_decode w)).
    { unfold varint_decode. apply consumes1_bind_l; [now apply pop_consumes1|]. intros a0.
      assert (G : forall k need, consumes (if (need <=? bits w)%N then rbind (raw k) (fun s => rret (unle s)) else rfail)).
      { intros k need. destruct (need <=? bits w)%N; [|apply consumes_fail]. apply consumes_bind; [apply raw_consumes|intros s0; apply consumes_ret]. }
      cbv zeta. destruct (byte a0 <? 251)%N; [apply consumes_ret|].
      repeat (match goal with |- consumes (if ?x then _ else _) => destruct x end; [apply G|]); apply consumes_fail. }
    apply C1 in E as (q & -> & N). exists (p ++ q). split; [now rewrite app_assoc|]. destruct p; [exact N|discriminate].
  - unfold char_decode. apply consumes1_bind_l; [now apply pop_consumes1|]. intros a. destruct (char_width a); [apply consumes_fail|].
    apply consumes_bind; [apply claim_consumes|]. intros _. apply consumes_bind; [apply raw_consumes|]. intros r.
    destruct (valid_utf8 _); [|apply consumes_fail]. destruct (first_char _); [apply consumes_ret|apply consumes_fail].
  - intros n N0 s b a s' b' E. apply rbind_ok in E as (u & [s1 b1] & E1 & E). apply claim_consumes in E1 as [p ->].
    unfold raw in E. destruct (List.length s1 <? N.to_nat n) eqn:L; [discriminate|]. injection E as <- <- <-.
    exists (p ++ firstn (N.to_nat n) s1). split; [rewrite <- app_assoc; f_equal; symmetry; apply firstn_skipn|].
    intros Z. apply (f_equal (@List.length ascii)) in Z. rewrite app_length, firstn_length_le in Z by lia. cbn in Z. lia.
Qed.

(** internal/src/serde_format.rs:5. *)
Definition BYTE_LIMIT : N := (1024 * 1024 * 1024)%N.

(** internal/src/serde_format.rs:36-50 [serialize]; encoding does not check the limit. *)
Definition serialize (v : val) : bytes := enc bincode v.

(** internal/src/serde_format.rs:63-68 [deserialize], on a stack of depth [f]. *)
Definition deserialize (env : nat -> ty) (f : nat) (t : ty) (s : bytes) : deserialized :=
  match dec bincode env f t (s, BYTE_LIMIT) with
  | Ok v _ => Value v
  | Fail => NoValue
  | Over => StackOverflow
  end.
