(** C01: the names of corpus files are the standard's SHA-1. *)
From Coq Require Import List Ascii String Bool Arith Lia NArith ZifyBool ZifyN ZifyNat.
From Verif Require Import Base Utf8 Sha1.
Import ListNotations.
Local Open Scope N_scope.

(** * Specification: FIPS 180-4, sections 3 to 6 *)

(** A number written with 256 digits, most significant first. *)
Definition base256 (l : bytes) : N := fold_left (fun v c => 256 * v + N_of_ascii c) l 0.

Definition plus (x y : N) : N := (x + y) mod 2 ^ 32.
Definition ROTL (n x : N) : N := x * 2 ^ n mod 2 ^ 32 + x / 2 ^ (32 - n).
Definition Ch (x y z : N) : N := N.lxor (N.land x y) (N.land (N.lnot x 32) z).
Definition Parity (x y z : N) : N := N.lxor (N.lxor x y) z.
Definition Maj (x y z : N) : N := N.lxor (N.lxor (N.land x y) (N.land x z)) (N.land y z).
Definition F (t : nat) : N -> N -> N -> N :=
  if (t <=? 19)%nat then Ch else if (t <=? 39)%nat then Parity else if (t <=? 59)%nat then Maj else Parity.
(** Hexadecimal constants. *)
Definition K (t : nat) : N :=
  if (t <=? 19)%nat then 0x5a827999 else if (t <=? 39)%nat then 0x6ed9eba1 else if (t <=? 59)%nat then 0x8f1bbcdc else 0xca62c1d6.
Definition H0 : N * N * N * N * N := (0x67452301, 0xefcdab89, 0x98badcfe, 0x10325476, 0xc3d2e1f0).

(** 5.1.1: one bit, the least number of zeros that makes whole blocks, the length in bits. *)
Definition padded (msg p : bytes) : Prop :=
  exists k L, p = msg ++ ascii_of_N 0x80 :: repeat (ascii_of_N 0) k ++ L /\ List.length L = 8%nat /\
    base256 L = (8 * N.of_nat (List.length msg)) mod 2 ^ 64 /\ (List.length p mod 64 = 0)%nat /\ (k < 64)%nat.

(** 6.1.2, step 1. *)
Definition is_schedule (block : bytes) (W : nat -> N) : Prop :=
  (forall t, (t < 16)%nat -> W t = base256 (firstn 4 (skipn (4 * t) block))) /\
  (forall t, (16 <= t < 80)%nat ->
     W t = ROTL 1 (N.lxor (N.lxor (N.lxor (W (t - 3)%nat) (W (t - 8)%nat)) (W (t - 14)%nat)) (W (t - 16)%nat))).

(** Steps 2 and 3. *)
Definition is_rounds (W : nat -> N) (s : state) (v : nat -> state) : Prop :=
  v 0%nat = s /\
  forall t, (t < 80)%nat -> v (S t) =
    let '(a, b, c, d, e) := v t in
    (plus (plus (plus (plus (ROTL 5 a) (F t b c d)) e) (K t)) (W t), a, ROTL 30 b, c, d).

(** Step 4 and the iteration over the blocks. *)
Definition plus5 (x y : state) : state :=
  let '(a, b, c, d, e) := x in let '(a', b', c', d', e') := y in (plus a a', plus b b', plus c c', plus d d', plus e e').
Inductive hashes : state -> list bytes -> state -> Prop :=
  | hs_nil s : hashes s [] s
  | hs_cons s block W v blocks s' : List.length block = 64%nat -> is_schedule block W -> is_rounds W s v ->
      hashes (plus5 s (v 80%nat)) blocks s' -> hashes s (block :: blocks) s'.

Definition is_sha1 (msg digest : bytes) : Prop :=
  exists p blocks a b c d e, padded msg p /\ p = List.concat blocks /\ hashes H0 blocks (a, b, c, d, e) /\
    List.length digest = 20%nat /\
    base256 (firstn 4 digest) = a /\ base256 (firstn 4 (skipn 4 digest)) = b /\ base256 (firstn 4 (skipn 8 digest)) = c /\
    base256 (firstn 4 (skipn 12 digest)) = d /\ base256 (skipn 16 digest) = e.

(** * Proofs *)

Lemma w32_mod x : w32 x = x mod 2 ^ 32.
Proof. unfold w32. change 4294967295 with (N.ones 32). apply N.land_ones. Qed.

Lemma addw_plus x y : addw x y = plus x y.
Proof. apply w32_mod. Qed.

Lemma lt_bits x n : x < 2 ^ n <-> forall i, n <= i -> N.testbit x i = false.
Proof.
  split.
  - intros H i L. destruct (N.eq_dec x 0) as [->|Z]; [apply N.bits_0|]. apply N.bits_above_log2.
    apply N.log2_lt_pow2; [lia|]. eapply N.lt_le_trans; [exact H|]. apply N.pow_le_mono_r; lia.
  - intros H. replace x with (x mod 2 ^ n); [apply N.mod_lt, N.pow_nonzero; discriminate|].
    apply N.bits_inj. intros i. destruct (N.lt_ge_cases i n) as [L|L].
    + now apply N.mod_pow2_bits_low.
    + rewrite N.mod_pow2_bits_high by exact L. symmetry. now apply H.
Qed.

Lemma lor_add a b : N.land a b = 0 -> N.lor a b = a + b.
Proof. intros H. rewrite N.add_nocarry_lxor by exact H. symmetry. now apply N.lxor_lor. Qed.

Lemma rotl_ROTL x n : n <= 32 -> x < 2 ^ 32 -> rotl x n = ROTL n x.
Proof.
  intros L B. unfold rotl, ROTL. rewrite w32_mod, N.shiftl_mul_pow2, N.shiftr_div_pow2. apply lor_add.
  apply N.bits_inj. intros i. rewrite N.land_spec, N.bits_0.
  destruct (N.lt_ge_cases i 32) as [I|I].
  - rewrite N.mod_pow2_bits_low by exact I. destruct (N.lt_ge_cases i n) as [J|J].
    + rewrite N.mul_pow2_bits_low by exact J. reflexivity.
    + rewrite N.div_pow2_bits. rewrite (proj1 (lt_bits x 32) B) by lia. apply andb_false_r.
  - now rewrite N.mod_pow2_bits_high.
Qed.

Lemma ROTL_lt x n : n <= 32 -> x < 2 ^ 32 -> ROTL n x < 2 ^ 32.
Proof.
  intros L B. rewrite <- rotl_ROTL by assumption. apply lt_bits. intros i I. unfold rotl. rewrite N.lor_spec, w32_mod.
  rewrite N.mod_pow2_bits_high by exact I. cbn [orb]. rewrite N.shiftr_spec'. apply (proj1 (lt_bits x 32) B). lia.
Qed.

Lemma plus_lt x y : plus x y < 2 ^ 32.
Proof. apply N.mod_lt. discriminate. Qed.

Lemma lxor_lt x y n : x < 2 ^ n -> y < 2 ^ n -> N.lxor x y < 2 ^ n.
Proof. rewrite !lt_bits. intros A B i I. now rewrite N.lxor_spec, A, B. Qed.

Lemma fk_FK t b c d : b < 2 ^ 32 -> fk t b c d = (F t b c d, K t).
Proof.
  intros B. unfold fk, F, K.
  assert (E : forall n, (t <? S n)%nat = (t <=? n)%nat) by (intros n; destruct (Nat.ltb_spec t (S n)), (Nat.leb_spec t n); lia).
  change 20%nat with (S 19). change 40%nat with (S 39). change 60%nat with (S 59). rewrite !E.
  destruct (t <=? 19)%nat; [|destruct (t <=? 39)%nat; [|destruct (t <=? 59)%nat]]; f_equal.
  - apply N.bits_inj. intros i. unfold Ch, notw. change 4294967295 with (N.ones 32). change (N.lxor b (N.ones 32)) with (N.lnot b 32).
    rewrite N.lor_spec, N.lxor_spec, !N.land_spec. destruct (N.lt_ge_cases i 32) as [I|I].
    + rewrite N.lnot_spec_low by exact I. destruct (N.testbit b i), (N.testbit c i), (N.testbit d i); reflexivity.
    + rewrite N.lnot_spec_high by exact I. now rewrite (proj1 (lt_bits b 32) B) by exact I.
  - unfold Parity. now rewrite N.lxor_assoc.
  - apply N.bits_inj. intros i. unfold Maj. rewrite !N.lor_spec, !N.lxor_spec, !N.land_spec.
    destruct (N.testbit b i), (N.testbit c i), (N.testbit d i); reflexivity.
  - unfold Parity. now rewrite N.lxor_assoc.
Qed.

Lemma be_value_base256 l : be_value l = base256 l.
Proof.
  unfold be_value, base256. generalize 0 as v. induction l as [|c l IH]; intros v; [reflexivity|]. cbn [fold_left].
  replace (N.lor (N.shiftl v 8) (N_of_ascii c)) with (256 * v + N_of_ascii c); [apply IH|].
  assert (C : N_of_ascii c < 2 ^ 8) by apply N_ascii_bounded.
  rewrite lor_add.
  - rewrite N.shiftl_mul_pow2. change (2 ^ 8) with 256. lia.
  - apply N.bits_inj. intros i. rewrite N.land_spec, N.bits_0. destruct (N.lt_ge_cases i 8) as [I|I].
    + now rewrite N.shiftl_spec_low.
    + rewrite (proj1 (lt_bits _ 8) C) by exact I. apply andb_false_r.
Qed.

Lemma base256_snoc l c : base256 (l ++ [c]) = 256 * base256 l + N_of_ascii c.
Proof. unfold base256. now rewrite fold_left_app. Qed.

Lemma base256_lt l : base256 l < 256 ^ N.of_nat (List.length l).
Proof.
  induction l as [|c l IH] using rev_ind; [reflexivity|]. rewrite base256_snoc, app_length. cbn [List.length].
  rewrite Nat.add_1_r, Nnat.Nat2N.inj_succ, N.pow_succ_r'. pose proof (N_ascii_bounded c). lia.
Qed.

Lemma base256_inj l : forall l', List.length l = List.length l' -> base256 l = base256 l' -> l = l'.
Proof.
  induction l as [|c l IH] using rev_ind; intros l' L E.
  - destruct l'; [reflexivity|discriminate].
  - destruct l' as [|c' l' _] using rev_ind; [rewrite app_length in L; cbn in L; lia|].
    rewrite !base256_snoc in E. rewrite !app_length in L. cbn in L.
    pose proof (N_ascii_bounded c). pose proof (N_ascii_bounded c').
    assert (Q : base256 l = base256 l' /\ N_of_ascii c = N_of_ascii c') by lia. destruct Q as (Q & R).
    rewrite (IH l') by (lia || exact Q). now rewrite <- (ascii_N_embedding c), <- (ascii_N_embedding c'), R.
Qed.

Lemma be_bytes_value n : forall x, base256 (be_bytes n x) = x mod 2 ^ (8 * N.of_nat n).
Proof.
  induction n as [|n IH]; intros x; [cbn [be_bytes]; change (8 * N.of_nat 0) with 0; now rewrite N.pow_0_r, N.mod_1_r|].
  cbn [be_bytes]. rewrite base256_snoc, IH.
  rewrite (N_ascii_embedding (N.land x 255)) by (change 255 with (N.ones 8); rewrite N.land_ones; apply N.mod_lt; discriminate).
  change 255 with (N.ones 8). rewrite N.land_ones, N.shiftr_div_pow2. change (2 ^ 8) with 256.
  replace (8 * N.of_nat (S n)) with (8 + 8 * N.of_nat n) by lia. rewrite N.pow_add_r. change (2 ^ 8) with 256.
  rewrite N.mod_mul_r; [lia|discriminate|]. apply N.pow_nonzero. discriminate.
Qed.

(** Pieces. *)
Lemma skipn_skipn' {A} (x y : nat) (l : list A) : skipn x (skipn y l) = skipn (x + y) l.
Proof.
  revert l. induction y as [|y IH]; intros l; [now rewrite Nat.add_0_r|]. rewrite Nat.add_succ_r.
  destruct l as [|a l]; [now rewrite !skipn_nil|]. cbn [skipn]. apply IH.
Qed.

Lemma chunks_fuel_nth {A} n (Z : (0 < n)%nat) : forall f (l : list A) t, (List.length l <= f)%nat ->
  nth t (chunks_fuel f n l) [] = firstn n (skipn (n * t) l).
Proof.
  induction f as [|f IH]; intros l t L.
  - destruct l; [|cbn in L; lia]. cbn [chunks_fuel]. rewrite skipn_nil, firstn_nil. now destruct t.
  - destruct l as [|a l]; [cbn [chunks_fuel]; rewrite skipn_nil, firstn_nil; now destruct t|].
    cbn [chunks_fuel]. destruct t as [|t]; [now rewrite Nat.mul_0_r|]. cbn [nth].
    rewrite IH by (rewrite skipn_length; cbn [List.length] in *; lia).
    rewrite skipn_skipn'. do 2 f_equal. lia.
Qed.

Lemma chunks_fuel_shape {A} n (Z : (0 < n)%nat) : forall k f (l : list A), (List.length l <= f)%nat -> List.length l = (n * k)%nat ->
  List.length (chunks_fuel f n l) = k /\ List.concat (chunks_fuel f n l) = l /\ Forall (fun c => List.length c = n) (chunks_fuel f n l).
Proof.
  induction k as [|k IH]; intros f l L E.
  - rewrite Nat.mul_0_r in E. destruct l; [|discriminate]. destruct f; cbn; auto.
  - destruct l as [|a l]; [cbn in E; lia|]. destruct f as [|f]; [cbn in L; lia|]. cbn [chunks_fuel].
    assert (SL : List.length (skipn n (a :: l)) = (n * k)%nat) by (rewrite skipn_length, E; lia).
    destruct (IH f (skipn n (a :: l))) as (A1 & A2 & A3); [rewrite SL; cbn [List.length] in *; lia|exact SL|].
    cbn [List.length List.concat]. rewrite A1, A2, firstn_skipn. split; [reflexivity|]. split; [reflexivity|].
    constructor; [|exact A3]. rewrite firstn_length, E. lia.
Qed.

(** The schedule, oldest first. *)
Definition next_word (l : list N) : N :=
  let m := List.length l in
  rotl (N.lxor (N.lxor (nth (m - 3) l 0) (nth (m - 8) l 0)) (N.lxor (nth (m - 14) l 0) (nth (m - 16) l 0))) 1.
Definition ext (n : nat) (l : list N) : list N := rev (extend_schedule n (rev l)).

Lemma ext_S n l : (16 <= List.length l)%nat -> ext (S n) l = ext n (l ++ [next_word l]).
Proof.
  intros L. unfold ext. cbn [extend_schedule]. rewrite rev_app_distr. cbn [rev app]. do 3 f_equal. unfold next_word.
  rewrite !rev_nth by lia. repeat f_equal; lia.
Qed.

Lemma ext_spec : forall n l, (16 <= List.length l)%nat ->
  (exists tl, ext n l = l ++ tl /\ List.length tl = n) /\
  forall t, (List.length l <= t < List.length l + n)%nat ->
    nth t (ext n l) 0 = rotl (N.lxor (N.lxor (nth (t - 3) (ext n l) 0) (nth (t - 8) (ext n l) 0))
                               (N.lxor (nth (t - 14) (ext n l) 0) (nth (t - 16) (ext n l) 0))) 1.
Proof.
  induction n as [|n IH]; intros l L.
  - split; [exists []; unfold ext; cbn; now rewrite rev_involutive, app_nil_r|]. intros t T. lia.
  - rewrite (ext_S n l L). destruct (IH (l ++ [next_word l])) as ((tl & E & T) & R); [rewrite app_length; cbn; lia|]. split.
    + exists (next_word l :: tl). rewrite E, <- app_assoc. split; [reflexivity|]. cbn. now rewrite T.
    + intros t B. rewrite app_length in R. cbn [List.length] in R.
      destruct (Nat.eq_dec t (List.length l)) as [->|N]; [|apply R; lia].
      rewrite E, <- app_assoc. rewrite app_nth2, Nat.sub_diag by lia. cbn [app nth].
      rewrite !app_nth1 by lia. reflexivity.
Qed.

Lemma schedule_spec block : List.length block = 64%nat ->
  List.length (schedule block) = 80%nat /\ is_schedule block (fun t => nth t (schedule block) 0) /\
  forall t, nth t (schedule block) 0 < 2 ^ 32.
Proof.
  intros L. set (ws := map be_value (chunks 4 block)).
  destruct (chunks_fuel_shape 4 ltac:(lia) 16 (List.length block) block) as (C1 & C2 & C3); [lia|exact L|].
  fold (@chunks ascii 4 block) in C1, C2, C3.
  assert (LW : List.length ws = 16%nat) by (unfold ws; now rewrite map_length, C1).
  assert (NW : forall t, nth t ws 0 = base256 (firstn 4 (skipn (4 * t) block))).
  { intros t. change 0 with (be_value []) at 1. unfold ws. rewrite map_nth, be_value_base256. unfold chunks.
    now rewrite chunks_fuel_nth by lia. }
  assert (SE : schedule block = ext 64 ws) by (unfold schedule, ext, ws; reflexivity). rewrite SE.
  clearbody ws. clear SE C1 C2 C3. destruct (ext_spec 64 ws) as ((tl & E & T) & R); [lia|].
  assert (LE : List.length (ext 64 ws) = 80%nat) by (rewrite E, app_length, LW, T; reflexivity).
  assert (B : forall t, nth t (ext 64 ws) 0 < 2 ^ 32).
  { intros t. induction t as [t IH] using lt_wf_ind. destruct (Nat.lt_ge_cases t 16) as [A|A].
    - rewrite E, app_nth1 by lia. rewrite NW. pose proof (base256_lt (firstn 4 (skipn (4 * t) block))) as Q.
      eapply N.lt_le_trans; [exact Q|]. change (2 ^ 32) with (256 ^ 4). apply N.pow_le_mono_r; [discriminate|].
      pose proof (firstn_le_length 4 (skipn (4 * t) block)). lia.
    - destruct (Nat.lt_ge_cases t 80) as [A'|A']; [|rewrite nth_overflow by lia; reflexivity].
      rewrite R by lia. rewrite rotl_ROTL; [apply ROTL_lt; [lia|]|lia|]; repeat apply lxor_lt; apply IH; lia. }
  split; [exact LE|]. split; [|exact B]. split.
  - intros t A. rewrite E, app_nth1 by lia. apply NW.
  - intros t A. rewrite R by lia. rewrite rotl_ROTL; [now rewrite <- !N.lxor_assoc|lia|]. repeat apply lxor_lt; apply B.
Qed.

Definition small5 (s : state) : Prop := let '(a, b, c, d, e) := s in a < 2 ^ 32 /\ b < 2 ^ 32 /\ c < 2 ^ 32 /\ d < 2 ^ 32 /\ e < 2 ^ 32.

Lemma plus_assoc x y z : plus (plus x y) z = plus x (plus y z).
Proof. unfold plus. rewrite N.add_mod_idemp_l, N.add_mod_idemp_r by discriminate. f_equal. lia. Qed.

Lemma round_spec s t w : small5 s ->
  round s (t, w) = (let '(a, b, c, d, e) := s in (plus (plus (plus (plus (ROTL 5 a) (F t b c d)) e) (K t)) w, a, ROTL 30 b, c, d)) /\
  small5 (round s (t, w)).
Proof.
  destruct s as [[[[a b] c] d] e]. cbn [small5]. intros (A & B & C & D & E). unfold round. cbn [fst snd].
  rewrite (fk_FK t b c d B), !addw_plus, !rotl_ROTL by (lia || assumption). split.
  - do 4 f_equal. now rewrite !plus_assoc.
  - cbn [small5]. repeat split; try assumption; [apply plus_lt|apply ROTL_lt; [lia|assumption]].
Qed.

Lemma nth_combine_seq (ws : list N) t : (t < List.length ws)%nat ->
  nth_error (combine (seq 0 (List.length ws)) ws) t = Some (t, nth t ws 0).
Proof.
  intros L. enough (G : forall (ws : list N) k t, (t < List.length ws)%nat ->
    nth_error (combine (seq k (List.length ws)) ws) t = Some ((k + t)%nat, nth t ws 0)) by (now apply (G ws 0%nat)).
  clear. induction ws as [|w ws IH]; intros k t L; [cbn in L; lia|]. cbn [List.length seq combine]. destruct t as [|t].
  - cbn. now rewrite Nat.add_0_r.
  - cbn [nth_error nth]. rewrite IH by (cbn in L; lia). do 2 f_equal. lia.
Qed.

Lemma firstn_S {A} (l : list A) n a : nth_error l n = Some a -> firstn (S n) l = firstn n l ++ [a].
Proof.
  revert n. induction l as [|x l IH]; intros [|n] H; try discriminate; [now injection H as ->|].
  cbn [nth_error] in H. change (firstn (S (S n)) (x :: l)) with (x :: firstn (S n) l). now rewrite (IH n H).
Qed.

Lemma rounds_spec ws s : List.length ws = 80%nat -> small5 s ->
  let v t := fold_left round (firstn t (combine (seq 0 (List.length ws)) ws)) s in
  is_rounds (fun t => nth t ws 0) s v /\ small5 (v 80%nat) /\ v 80%nat = fold_left round (combine (seq 0 (List.length ws)) ws) s.
Proof.
  intros L Sm v.
  assert (St : forall t, (t < 80)%nat -> v (S t) = round (v t) (t, nth t ws 0)).
  { intros t T. unfold v. rewrite (firstn_S _ t (t, nth t ws 0)); [|apply nth_combine_seq; lia]. now rewrite fold_left_app. }
  assert (B : forall t, (t <= 80)%nat -> small5 (v t)).
  { induction t as [|t IH]; intros T; [exact Sm|]. rewrite St by lia. apply round_spec. apply IH. lia. }
  split; [split; [reflexivity|]|split; [now apply B|]].
  - intros t T. rewrite St by exact T. apply round_spec, B. lia.
  - unfold v. rewrite firstn_all2; [reflexivity|]. rewrite combine_length, seq_length. lia.
Qed.

Lemma compress_spec s block : List.length block = 64%nat -> small5 s ->
  small5 (compress s block) /\ exists W v, is_schedule block W /\ is_rounds W s v /\ compress s block = plus5 s (v 80%nat).
Proof.
  intros L S. destruct (schedule_spec block L) as (L80 & SC & _).
  destruct (rounds_spec (schedule block) s L80 S) as (R & B & E). unfold compress. cbv zeta.
  rewrite <- E. split.
  - destruct (fold_left _ _ _) as [[[[a b] c] d] e]. destruct s as [[[[a0 b0] c0] d0] e0]. rewrite !addw_plus. cbn [small5].
    repeat split; apply plus_lt.
  - exists (fun t => nth t (schedule block) 0). eexists. split; [exact SC|]. split; [exact R|]. cbv beta.
    destruct (fold_left _ _ _) as [[[[a b] c] d] e]. destruct s as [[[[a0 b0] c0] d0] e0]. now rewrite !addw_plus.
Qed.

Lemma fold_left_cons {A B} (f : A -> B -> A) b l a : fold_left f (b :: l) a = fold_left f l (f a b).
Proof. reflexivity. Qed.

Lemma hashes_cons s b blocks r : List.length b = 64%nat -> small5 s -> hashes (compress s b) blocks r -> hashes s (b :: blocks) r.
Proof.
  intros L S H. destruct (compress_spec s b L S) as (B & W & v & SC & R & E). rewrite E in H. exact (hs_cons s b W v blocks _ L SC R H).
Qed.

Lemma hashes_fold blocks : Forall (fun b => List.length b = 64%nat) blocks -> forall s, small5 s ->
  hashes s blocks (fold_left compress blocks s) /\ small5 (fold_left compress blocks s).
Proof.
  induction 1 as [|b blocks L Fa IH]; intros s S; [split; [constructor|exact S]|]. rewrite fold_left_cons.
  destruct (compress_spec s b L S) as (B & _). destruct (IH _ B) as (H & B'). split; [|exact B'].
  exact (hashes_cons s b blocks _ L S H).
Qed.

Lemma pad_padded msg : padded msg (pad msg) /\ exists k, List.length (pad msg) = (64 * k)%nat.
Proof.
  unfold pad. set (n := List.length msg).
  assert (D : (n = 64 * (n / 64) + n mod 64)%nat) by (apply Nat.div_mod; discriminate).
  assert (M : (n mod 64 < 64)%nat) by (apply Nat.mod_upper_bound; discriminate).
  set (r := (n mod 64)%nat) in *. set (q := (n / 64)%nat) in *. clearbody r q.
  assert (Z : exists j, (119 - r = 64 * j + (119 - r) mod 64)%nat /\ ((119 - r) mod 64 < 64)%nat).
  { exists ((119 - r) / 64)%nat. split; [apply Nat.div_mod; discriminate|apply Nat.mod_upper_bound; discriminate]. }
  destruct Z as (j & J1 & J2). set (z := ((119 - r) mod 64)%nat) in *. clearbody z.
  assert (LEN : List.length (msg ++ [ascii_of_N 128] ++ repeat (ascii_of_N 0) z ++ be_bytes 8 (8 * N.of_nat n)) = (64 * (q + 2 - j))%nat).
  { rewrite !app_length, repeat_length, be_bytes_length. cbn [List.length]. fold n. lia. }
  split; [|eexists; exact LEN].
  exists z, (be_bytes 8 (8 * N.of_nat n)). split; [reflexivity|]. split; [apply be_bytes_length|]. split; [apply (be_bytes_value 8)|].
  split; [|exact J2]. rewrite LEN, Nat.mul_comm. apply Nat.mod_mul. discriminate.
Qed.

Lemma padded_unique msg p p' : padded msg p -> padded msg p' -> p = p'.
Proof.
  intros (k & L & -> & A & B & C & D) (k' & L' & -> & A' & B' & C' & D').
  assert (L = L') as <- by (apply base256_inj; congruence).
  assert (k = k') as <-; [|reflexivity].
  rewrite !app_length in C, C'. cbn [List.length] in C, C'. rewrite !app_length, !repeat_length, A in C, C'.
  apply Nat.mod_divides in C as (x & C); [|discriminate]. apply Nat.mod_divides in C' as (y & C'); [|discriminate]. lia.
Qed.

Lemma schedule_unique block W W' : is_schedule block W -> is_schedule block W' -> forall t, (t < 80)%nat -> W t = W' t.
Proof.
  intros (A & B) (A' & B') t. induction t as [t IH] using lt_wf_ind. intros T. destruct (Nat.lt_ge_cases t 16) as [L|L].
  - now rewrite A, A'.
  - rewrite B, B' by lia. rewrite !IH by lia. reflexivity.
Qed.

Lemma rounds_unique W W' s v v' : (forall t, (t < 80)%nat -> W t = W' t) -> is_rounds W s v -> is_rounds W' s v' ->
  forall t, (t <= 80)%nat -> v t = v' t.
Proof.
  intros E (A & B) (A' & B') t. induction t as [|t IH]; intros T; [congruence|].
  rewrite B, B' by lia. rewrite IH, (E t) by lia. reflexivity.
Qed.

Lemma hashes_unique blocks : forall s r, hashes s blocks r -> forall blocks' r', List.concat blocks = List.concat blocks' ->
  hashes s blocks' r' -> r = r'.
Proof.
  intros s r H. induction H as [s|s b W v blocks s' L SC R H IH]; intros blocks' r' E H'.
  - destruct H' as [|s b' W' v' blocks' s' L' SC' R' H']; [reflexivity|]. destruct b'; cbn in *; discriminate.
  - inversion H' as [|s0 b' W' v' bs s'0 L' SC' R' H'']; subst; [destruct b; cbn in *; discriminate|].
    cbn [List.concat] in E.
    assert (b = b' /\ List.concat blocks = List.concat bs) as (<- & E').
    { assert (Q : firstn 64 (b ++ List.concat blocks) = firstn 64 (b' ++ List.concat bs)) by congruence.
      rewrite !firstn_app, L, L', Nat.sub_diag, !firstn_O, !app_nil_r, <- L, firstn_all, L, <- L', firstn_all in Q.
      split; [exact Q|]. subst b'. now apply app_inv_head in E. }
    apply (IH bs r' E'). rewrite (rounds_unique W W' s v v' (schedule_unique b W W' SC SC') R R' 80%nat) by lia. exact H''.
Qed.

(** [sha1] computes the digest the standard defines, for every message. *)
Theorem C01_sha1_standard msg digest : is_sha1 msg digest <-> digest = sha1 msg.
Proof.
  destruct (pad_padded msg) as (P & k & LK).
  destruct (chunks_fuel_shape 64 ltac:(lia) k (List.length (pad msg)) (pad msg)) as (_ & C2 & C3); [lia|exact LK|].
  fold (@chunks ascii 64 (pad msg)) in C2, C3.
  assert (S0 : small5 iv) by (cbn [small5 iv]; repeat split; reflexivity).
  destruct (hashes_fold _ C3 iv S0) as (H & B).
  assert (X : is_sha1 msg (sha1 msg)).
  { exists (pad msg), (chunks 64 (pad msg)). pose proof (sha1_length msg) as SL. unfold sha1 in *.
    destruct (fold_left compress (chunks 64 (pad msg)) iv) as [[[[a b] c] d] e].
    exists a, b, c, d, e. split; [exact P|]. split; [now symmetry|]. split; [exact H|]. split; [exact SL|].
    destruct B as (Ba & Bb & Bc & Bd & Be).
    assert (V : forall x, x < 2 ^ 32 -> base256 (be_bytes 4 x) = x) by (intros x Bx; rewrite be_bytes_value; now apply N.mod_small).
    pose proof (be_bytes_length 4) as L4. pose proof (V a Ba) as Va. pose proof (V b Bb) as Vb. pose proof (V c Bc) as Vc.
    pose proof (V d Bd) as Vd. pose proof (V e Be) as Ve. pose proof (L4 a) as La. pose proof (L4 b) as Lb. pose proof (L4 c) as Lc. pose proof (L4 d) as Ld.
    set (xa := be_bytes 4 a) in *. set (xb := be_bytes 4 b) in *. set (xc := be_bytes 4 c) in *. set (xd := be_bytes 4 d) in *. set (xe := be_bytes 4 e) in *.
    clearbody xa xb xc xd xe.
    destruct xa as [|a1 [|a2 [|a3 [|a4 []]]]]; try discriminate La. destruct xb as [|b1 [|b2 [|b3 [|b4 []]]]]; try discriminate Lb.
    destruct xc as [|c1 [|c2 [|c3 [|c4 []]]]]; try discriminate Lc. destruct xd as [|d1 [|d2 [|d3 [|d4 []]]]]; try discriminate Ld.
    cbn [app firstn skipn]. repeat split; assumption. }
  split; [|intros ->; exact X].
  intros (p & blocks & a & b & c & d & e & P1 & E1 & H1 & L1 & Q1 & Q2 & Q3 & Q4 & Q5).
  destruct X as (p' & blocks' & a' & b' & c' & d' & e' & P2 & E2 & H2 & L2 & R1 & R2 & R3 & R4 & R5).
  pose proof (padded_unique msg p p' P1 P2) as <-.
  assert (Z : (a, b, c, d, e) = (a', b', c', d', e')) by (eapply hashes_unique; [exact H1| |exact H2]; congruence).
  injection Z as <- <- <- <- <-.
  set (y := sha1 msg) in *. clearbody y.
  assert (J : forall n m, firstn m (skipn n digest) = firstn m (skipn n y) -> skipn (m + n) digest = skipn (m + n) y -> skipn n digest = skipn n y).
  { intros n m A1 A2. rewrite <- (firstn_skipn m (skipn n digest)), <- (firstn_skipn m (skipn n y)), !skipn_skipn'. congruence. }
  assert (L : forall n m, List.length (firstn m (skipn n digest)) = List.length (firstn m (skipn n y))).
  { intros n m. now rewrite !firstn_length, !skipn_length, L1, L2. }
  change (skipn 0 digest = skipn 0 y). apply (J 0%nat 4%nat); [apply base256_inj; [apply L|cbn [skipn]; congruence]|].
  apply (J 4%nat 4%nat); [apply base256_inj; [apply L|congruence]|]. apply (J 8%nat 4%nat); [apply base256_inj; [apply L|congruence]|].
  apply (J 12%nat 4%nat); [apply base256_inj; [apply L|congruence]|]. apply base256_inj; [now rewrite !skipn_length, L1, L2|].
  change (4 + 12)%nat with 16%nat. congruence.
Qed.
Print Assumptions C01_sha1_standard.

(** FIPS 180-4's example of two blocks. *)
Example C01_sha1_example :
  exists digest, is_sha1 (lit "abcdbcdecdefdefgefghfghighijhijkijkljklmklmnlmnomnopnopq") digest /\
    hex digest = lit "84983e441c3bd26ebaae4aa1f95129e5e54670f1" /\
    List.length (pad (lit "abcdbcdecdefdefgefghfghighijhijkijkljklmklmnlmnomnopnopq")) = 128%nat.
Proof. eexists. split; [apply C01_sha1_standard; reflexivity|]. vm_compute. auto. Qed.
