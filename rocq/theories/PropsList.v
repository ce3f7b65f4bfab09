(** C111: what [--list] prints. *)
From Coq Require Import List Ascii String Bool Arith NArith Lia ZifyBool ZifyN ZifyNat.
From Verif Require Import Base Utf8 Serde Semver Meta ListText.
Import ListNotations.
Local Open Scope nat_scope.

(** * Specification *)

(** Everything in the list is text. *)
Definition textual (show : version -> str) (et : executable * list str) : Prop :=
  valid_utf8 (ex_path (fst et)) = true /\ valid_utf8 (ex_name (fst et)) = true /\ Forall (fun t => valid_utf8 t = true) (snd et) /\
  forall v, valid_utf8 (show v) = true.

(** What can be seen of an executable: its path, its name and the texts of the versions. *)
Definition same_exe (show : version -> str) (x y : executable) : Prop :=
  let seen v := match v with Some v => show v | None => [] end in
  ex_path x = ex_path y /\ ex_name x = ex_name y /\ seen (ex_test_fuzz x) = seen (ex_test_fuzz y) /\ seen (ex_afl x) = seen (ex_afl y).

(** Ordinary characters. *)
Definition ordinary (s : str) : Prop := Forall (fun c => (32 <= byte c < 127)%N /\ ~ In c (lit "'" ++ [quote; backslash])) s.

(** * Proofs *)

Lemma byte_inj a b : byte a = byte b -> a = b.
Proof. unfold byte. intros E. rewrite <- (ascii_N_embedding a), <- (ascii_N_embedding b). now rewrite E. Qed.

(** ** Characters *)

Lemma concat_chars s : List.concat (chars s) = s.
Proof.
  induction s as [|a r IH]; [reflexivity|]. cbn [chars]. destruct r as [|b r]; [reflexivity|]. destruct (is_cont b).
  - destruct (chars (b :: r)) as [|u us]; [discriminate IH|]. cbn [List.concat app] in *. now rewrite IH.
  - cbn [List.concat app]. now rewrite IH.
Qed.

Definition starts_char (s : bytes) : Prop := forall c, hd_error s = Some c -> is_cont c = false.

Lemma chars_cons u : forall s, u <> [] -> (forall c, In c (tl u) -> is_cont c = true) -> starts_char s -> chars (u ++ s) = u :: chars s.
Proof.
  induction u as [|a u IH]; intros s N C St; [contradiction|]. destruct u as [|b u].
  - cbn [app chars]. destruct s as [|b s]; [reflexivity|]. now rewrite (St b eq_refl).
  - change ((a :: b :: u) ++ s) with (a :: (b :: u) ++ s). cbn [chars]. change ((b :: u) ++ s) with (b :: u ++ s) at 1. cbv iota beta.
    rewrite (C b ltac:(now left)). rewrite IH; [reflexivity|discriminate| |exact St]. intros c I. apply C. now right.
Qed.

Lemma valid_chars s : valid_utf8 s = true -> Forall one_char (chars s).
Proof.
  intros V. enough (H : Forall one_char (chars s) /\ starts_char s) by tauto. revert s V. apply valid_utf8_ind.
  - split; [constructor|]. intros c H. discriminate.
  - intros u s N _ (F & St) C H V. split.
    + rewrite chars_cons by assumption. constructor; [|exact F]. split.
      * rewrite <- (app_nil_r u). now rewrite V.
      * destruct u as [|c r]; [contradiction|]. exists c, r. split; [reflexivity|]. apply Forall_forall. exact C.
    + destruct u as [|c r]; [contradiction|]. intros d [= <-]. now apply H.
Qed.

Lemma one_char_cases u : one_char u ->
  (exists a, u = [a] /\ (byte a < 128)%N) \/
  (exists a b, u = [a; b] /\ (194 <= byte a <= 223 /\ 128 <= byte b <= 191)%N) \/
  (exists a b c, u = [a; b; c] /\ (224 <= byte a <= 239 /\ 128 <= byte b <= 191 /\ 128 <= byte c <= 191 /\ (byte a = 224 -> 160 <= byte b))%N) \/
  (exists a b c d, u = [a; b; c; d] /\
    (240 <= byte a <= 244 /\ 128 <= byte b <= 191 /\ 128 <= byte c <= 191 /\ 128 <= byte d <= 191 /\ (byte a = 240 -> 144 <= byte b))%N).
Proof.
  intros (V & c & r & -> & C). cbn [valid_utf8] in V. destruct (byte c <? 128)%N eqn:E0.
  { left. exists c. destruct r as [|d r]; [split; [reflexivity|lia]|]. exfalso. inversion C as [|? ? Cd _]; subst. cbn [valid_utf8] in V.
    unfold is_cont, in_range in *. destruct (byte d <? 128)%N eqn:E; [lia|]. destruct r as [|e r]; [discriminate|].
    assert ((194 <=? byte d)%N && (byte d <=? 223)%N = false) as X by lia. rewrite X in V. destruct r as [|f r]; [discriminate|].
    assert ((224 <=? byte d)%N && (byte d <=? 239)%N = false) as Y by lia. rewrite Y in V. destruct r as [|g r]; [discriminate|]. lia. }
  assert (T : forall x r, Forall (fun d => is_cont d = true) r -> valid_utf8 r = true -> r = x -> x = []).
  { clear. intros x r C V <-. destruct r as [|d r]; [reflexivity|]. exfalso. inversion C as [|? ? Cd _]; subst. cbn [valid_utf8] in V.
    unfold is_cont, in_range in *. destruct (byte d <? 128)%N eqn:E; [lia|]. destruct r as [|e r]; [discriminate|].
    assert ((194 <=? byte d)%N && (byte d <=? 223)%N = false) as X by lia. rewrite X in V. destruct r as [|f r]; [discriminate|].
    assert ((224 <=? byte d)%N && (byte d <=? 239)%N = false) as Y by lia. rewrite Y in V. destruct r as [|g r]; [discriminate|]. lia. }
  destruct r as [|b r]; [discriminate|]. inversion C as [|? ? Cb C1]; subst. destruct (in_range 194 223 c) eqn:E1.
  { apply andb_true_iff in V as (_ & V). right. left. exists c, b. rewrite (T r r C1 V eq_refl). split; [reflexivity|]. unfold is_cont, in_range in *. lia. }
  destruct r as [|d r]; [discriminate|]. inversion C1 as [|? ? Cd C2]; subst. destruct (in_range 224 239 c) eqn:E2.
  { apply andb_true_iff in V as (V1 & V). apply andb_true_iff in V1 as (V1 & _). right. right. left. exists c, b, d. rewrite (T r r C2 V eq_refl). split; [reflexivity|].
    unfold is_cont, in_range in *. destruct (byte c =? 224)%N eqn:Q; lia. }
  destruct r as [|e r]; [discriminate|]. inversion C2 as [|? ? Ce C3]; subst.
  apply andb_true_iff in V as (V1 & V). apply andb_true_iff in V1 as (V1 & _). apply andb_true_iff in V1 as (V1 & _). apply andb_true_iff in V1 as (V0 & V1).
  right. right. right. exists c, b, d, e. rewrite (T r r C3 V eq_refl). split; [reflexivity|]. unfold is_cont, in_range in *. destruct (byte c =? 240)%N eqn:Q; lia.
Qed.

Lemma code_inj u v : one_char u -> one_char v -> code u = code v -> u = v.
Proof.
  intros U V E.
  destruct (one_char_cases u U) as [(a & -> & A)|[(a & b & -> & A)|[(a & b & c & -> & A)|(a & b & c & d & -> & A)]]];
  destruct (one_char_cases v V) as [(a' & -> & A')|[(a' & b' & -> & A')|[(a' & b' & c' & -> & A')|(a' & b' & c' & d' & -> & A')]]];
  cbn [code] in E; try (exfalso; lia).
  - f_equal. now apply byte_inj.
  - assert (byte a = byte a' /\ byte b = byte b') as (Q1 & Q2) by lia. apply byte_inj in Q1, Q2. congruence.
  - assert (byte a = byte a' /\ byte b = byte b' /\ byte c = byte c') as (Q1 & Q2 & Q3) by lia. apply byte_inj in Q1, Q2, Q3. congruence.
  - assert (byte a = byte a' /\ byte b = byte b' /\ byte c = byte c' /\ byte d = byte d') as (Q1 & Q2 & Q3 & Q4) by lia. apply byte_inj in Q1, Q2, Q3, Q4. congruence.
Qed.

(** ** Hexadecimal numbers *)

Definition hex_value (c : ascii) : N := (if byte c <? 58 then byte c - 48 else byte c - 87)%N.
Definition is_hex (c : ascii) : Prop := (48 <= byte c <= 57 \/ 97 <= byte c <= 102)%N.
Definition from16 (v : N) (s : str) : N := fold_left (fun v c => (16 * v + hex_value c)%N) s v.

Lemma hex_digit_byte d : (d < 16)%N -> byte (hex_digit d) = (if d <? 10 then 48 + d else 87 + d)%N.
Proof. intros H. unfold hex_digit, byte. destruct (d <? 10)%N; apply N_ascii_embedding; lia. Qed.

Lemma hex_digit_value d : (d < 16)%N -> hex_value (hex_digit d) = d.
Proof.
  intros M. unfold hex_value. rewrite hex_digit_byte by exact M. destruct (d <? 10)%N eqn:Q.
  - assert ((48 + d <? 58)%N = true) as -> by lia. lia.
  - assert ((87 + d <? 58)%N = false) as -> by lia. lia.
Qed.

Lemma hex_digit_hex d : (d < 16)%N -> is_hex (hex_digit d).
Proof. intros M. unfold is_hex. rewrite hex_digit_byte by exact M. destruct (d <? 10)%N eqn:Q; lia. Qed.

Lemma hex_loop_spec fuel : forall n acc, (n < 2 ^ N.of_nat fuel)%N ->
  exists ds, hex_loop fuel n acc = ds ++ acc /\ Forall is_hex ds /\ forall v, (from16 v ds = v * 16 ^ N.of_nat (List.length ds) + n)%N.
Proof.
  induction fuel as [|fuel IH]; intros n acc L.
  { exists []. split; [reflexivity|]. split; [constructor|]. intros v. cbn [from16 fold_left List.length]. change (2 ^ N.of_nat 0)%N with 1%N in L. change (16 ^ N.of_nat 0)%N with 1%N. lia. }
  cbn [hex_loop]. assert (M : (n mod 16 < 16)%N) by (apply N.mod_lt; discriminate). assert (D : (n = 16 * (n / 16) + n mod 16)%N) by (apply N.div_mod; discriminate).
  assert (HV : hex_value (hex_digit (n mod 16)) = (n mod 16)%N) by (now apply hex_digit_value).
  assert (HI : is_hex (hex_digit (n mod 16))) by (now apply hex_digit_hex).
  destruct (n / 16 =? 0)%N eqn:E.
  - exists [hex_digit (n mod 16)]. split; [reflexivity|]. split; [constructor; [exact HI|constructor]|]. intros v. cbn [from16 fold_left List.length]. rewrite HV.
    change (N.of_nat 1) with 1%N. rewrite N.pow_1_r. lia.
  - destruct (IH (n / 16)%N (hex_digit (n mod 16) :: acc)) as (ds & Eq & F & V).
    { rewrite Nat2N.inj_succ, N.pow_succ_r' in L. lia. }
    exists (ds ++ [hex_digit (n mod 16)]). rewrite Eq, <- app_assoc. split; [reflexivity|]. split; [apply Forall_app; split; [exact F|constructor; [exact HI|constructor]]|].
    intros v. unfold from16. rewrite fold_left_app. fold (from16 v ds). rewrite V. cbn [fold_left]. rewrite HV, app_length. cbn [List.length].
    rewrite Nat.add_1_r, Nat2N.inj_succ, N.pow_succ_r'. lia.
Qed.

Lemma hex_spec n : Forall is_hex (hex n) /\ from16 0 (hex n) = n.
Proof.
  unfold hex. destruct (hex_loop_spec (S (N.to_nat (N.log2 n))) n []) as (ds & E & F & V).
  - rewrite Nat2N.inj_succ, N2Nat.id. destruct n as [|p]; [reflexivity|]. apply N.log2_spec. lia.
  - rewrite E, app_nil_r. split; [exact F|]. rewrite V. lia.
Qed.

(** ** Strings *)

(** Where digits end is visible. *)
Lemma hex_end a b x y : Forall is_hex a -> Forall is_hex b -> a ++ "}"%char :: x = b ++ "}"%char :: y -> a = b /\ x = y.
Proof.
  revert b. induction a as [|c a IH]; intros b A B E; destruct b as [|d b]; cbn [app] in E.
  - injection E as ->. auto.
  - injection E as <- E. inversion B as [|? ? Q _]; subst. exfalso. unfold is_hex in Q. change (byte "}"%char) with 125%N in Q. lia.
  - injection E as -> E. inversion A as [|? ? Q _]; subst. exfalso. unfold is_hex in Q. change (byte "}"%char) with 125%N in Q. lia.
  - injection E as -> E. inversion A; inversion B; subst. destruct (IH b) as (-> & ->); auto.
Qed.

(** The kinds of escaped characters. *)
Definition raw (u : bytes) (e : str) : Prop := e = u /\ hd_error u <> Some backslash /\ hd_error u <> Some quote.
Definition short (u : bytes) (e : str) : Prop :=
  exists a c, u = [a] /\ e = [backslash; c] /\ c <> "u"%char /\
    ((byte a = 0%N /\ c = "0"%char) \/ (byte a = 9%N /\ c = "t"%char) \/ (byte a = 10%N /\ c = "n"%char) \/ (byte a = 13%N /\ c = "r"%char) \/
     (c = a /\ (a = quote \/ a = backslash \/ a = apostrophe))).
Definition numbered (u : bytes) (e : str) : Prop := e = backslash :: lit "u{" ++ hex (code u) ++ lit "}".

Lemma escape_kinds printable all u : one_char u -> raw u (escape printable all u) \/ short u (escape printable all u) \/ numbered u (escape printable all u).
Proof.
  intros U. unfold escape. destruct u as [|a [|b u]].
  - destruct U as (_ & c & r & E & _). discriminate.
  - destruct (byte a =? 0)%N eqn:E0; [right; left; exists a, "0"%char; repeat split; try discriminate; left; split; [lia|reflexivity]|].
    destruct (byte a =? 9)%N eqn:E9; [right; left; exists a, "t"%char; repeat split; try discriminate; right; left; split; [lia|reflexivity]|].
    destruct (byte a =? 10)%N eqn:E10; [right; left; exists a, "n"%char; repeat split; try discriminate; right; right; left; split; [lia|reflexivity]|].
    destruct (byte a =? 13)%N eqn:E13; [right; left; exists a, "r"%char; repeat split; try discriminate; right; right; right; left; split; [lia|reflexivity]|].
    destruct (Ascii.eqb a quote) eqn:Eq; [apply Ascii.eqb_eq in Eq; subst a; right; left; exists quote, quote; repeat split; try discriminate; auto 10|].
    destruct (Ascii.eqb a backslash) eqn:Eb; [apply Ascii.eqb_eq in Eb; subst a; right; left; exists backslash, backslash; repeat split; try discriminate; auto 10|].
    apply Ascii.eqb_neq in Eq, Eb.
    destruct (Ascii.eqb a apostrophe) eqn:Ea.
    { apply Ascii.eqb_eq in Ea; subst a. destruct all.
      - right; left; exists apostrophe, apostrophe; repeat split; try discriminate; auto 10.
      - left. repeat split; cbn; congruence. }
    destruct ((32 <=? byte a)%N && (byte a <? 127)%N); [left; split; [reflexivity|split; cbn [hd_error]; congruence]|right; right; reflexivity].
  - destruct (printable (a :: b :: u)); [left|right; right; reflexivity]. split; [reflexivity|].
    destruct (one_char_cases _ U) as [(a' & Q & A)|[(a' & b' & Q & A)|[(a' & b' & c & Q & A)|(a' & b' & c & d & Q & A)]]]; [discriminate|..];
      injection Q as -> -> _; (split; cbn [hd_error]; intros Z; assert (Y : Some (byte a') = Some (byte backslash) \/ Some (byte a') = Some (byte quote)) by (injection Z as ->; auto);
      destruct Y as [Y|Y]; injection Y as Y; try change (byte backslash) with 92%N in Y; try change (byte quote) with 34%N in Y; lia).
Qed.

Lemma escape_starts printable all u s : one_char u -> starts_char (escape printable all u ++ s) /\ hd_error (escape printable all u ++ s) <> Some quote.
Proof.
  intros U. destruct (escape_kinds printable all u U) as [(-> & N1 & N2)|[(a & c & -> & -> & _)|Q]].
  - destruct U as (V & c & r & -> & C). cbn [app hd_error] in *. split; [|exact N2]. intros d [= <-].
    assert (U : one_char (c :: r)) by (split; eauto). unfold is_cont, in_range.
    destruct (one_char_cases _ U) as [(a' & Q & A)|[(a' & b' & Q & A)|[(a' & b' & x & Q & A)|(a' & b' & x & d & Q & A)]]]; injection Q as -> _; lia.
  - split; [intros d [= <-]; reflexivity|discriminate].
  - rewrite Q. split; [intros d [= <-]; reflexivity|discriminate].
Qed.

Lemma raw_prefix u v : forall x y, one_char u -> one_char v -> starts_char x -> starts_char y -> u ++ x = v ++ y -> u = v /\ x = y.
Proof.
  intros x y U V X Y E. pose proof U as (_ & c & r & -> & C). pose proof V as (_ & d & r' & -> & D). cbn [app] in E. injection E as -> E.
  enough (r = r' /\ x = y) as (-> & ->) by auto. clear U V. revert r' D E. induction r as [|a r IH]; intros r' D E; destruct r' as [|b r']; cbn [app] in E.
  - auto.
  - subst x. inversion D as [|? ? Q _]; subst. rewrite (X b eq_refl) in Q. discriminate.
  - subst y. inversion C as [|? ? Q _]; subst. rewrite (Y a eq_refl) in Q. discriminate.
  - injection E as -> E. inversion C; inversion D; subst. destruct (IH ltac:(assumption) r') as (-> & ->); auto.
Qed.

Lemma escape_prefix printable all u v x y : one_char u -> one_char v -> starts_char x -> starts_char y ->
  escape printable all u ++ x = escape printable all v ++ y -> u = v /\ x = y.
Proof.
  intros U V X Y E.
  destruct (escape_kinds printable all u U) as [(Eu & N1 & N2)|[(a & c & Hu & Eu & Nu & K)|Eu]], (escape_kinds printable all v V) as [(Ev & M1 & M2)|[(b & d & Hv & Ev & Nv & L)|Ev]];
    rewrite Eu, Ev in E.
  - now apply raw_prefix.
  - exfalso. destruct U as (_ & z & r & -> & _). cbn [app hd_error] in *. injection E as -> _. congruence.
  - exfalso. destruct U as (_ & z & r & -> & _). cbn [app hd_error] in *. injection E as -> _. congruence.
  - exfalso. destruct V as (_ & z & r & -> & _). cbn [app hd_error] in *. injection E as <- _. congruence.
  - cbn [app] in E. injection E as -> ->. split; [|reflexivity]. subst u v. f_equal.
    destruct K as [(K & ->)|[(K & ->)|[(K & ->)|[(K & ->)|(-> & K)]]]], L as [(L & Q)|[(L & Q)|[(L & Q)|[(L & Q)|(Q & L)]]]]; try discriminate Q;
      try (apply byte_inj; congruence); try (subst b; destruct L as [L|[L|L]]; discriminate L); try (subst a; destruct K as [K|[K|K]]; discriminate K); congruence.
  - exfalso. cbn [app] in E. injection E as Q _. congruence.
  - exfalso. destruct V as (_ & z & r & -> & _). cbn [app hd_error] in *. injection E as <- _. congruence.
  - exfalso. cbn [app] in E. injection E as Q _. congruence.
  - cbn [app] in E. rewrite <- !app_assoc in E. injection E as E. cbn [app] in E.
    apply hex_end in E as (E & ->); [|apply hex_spec..]. split; [|reflexivity]. apply code_inj; auto.
    rewrite <- (proj2 (hex_spec (code u))), <- (proj2 (hex_spec (code v))). now rewrite E.
Qed.

(** A debug text ends where it ends, and determines the string. *)
Lemma debug_prefix printable all s t x y : valid_utf8 s = true -> valid_utf8 t = true ->
  debug_text printable all s ++ x = debug_text printable all t ++ y -> s = t /\ x = y.
Proof.
  intros S0 T0 E. unfold debug_text in E. cbn [app] in E. injection E as E. rewrite <- !app_assoc in E. cbn [app] in E.
  enough (chars s = chars t /\ x = y) as (Q & ->) by (split; [|reflexivity]; now rewrite <- (concat_chars s), <- (concat_chars t), Q).
  apply valid_chars in S0, T0. revert S0 T0 E. generalize (chars t). clear t. induction (chars s) as [|u us IH]; intros vs S0 T0 E; destruct vs as [|v vs]; cbn [flat_map app] in E.
  - injection E as ->. auto.
  - exfalso. inversion T0 as [|? ? V _]; subst. rewrite <- app_assoc in E. apply (proj2 (escape_starts printable all v (flat_map (escape printable all) vs ++ quote :: y) V)).
    rewrite <- E. reflexivity.
  - exfalso. inversion S0 as [|? ? V _]; subst. rewrite <- app_assoc in E. apply (proj2 (escape_starts printable all u (flat_map (escape printable all) us ++ quote :: x) V)).
    rewrite E. reflexivity.
  - inversion S0 as [|? ? U S1]; subst. inversion T0 as [|? ? V T1]; subst. rewrite <- !app_assoc in E.
    assert (St : forall ws z, Forall one_char ws -> starts_char (flat_map (escape printable all) ws ++ quote :: z)).
    { intros [|w ws] z F; [intros c [= <-]; reflexivity|]. inversion F; subst. cbn [flat_map]. rewrite <- app_assoc. now apply escape_starts. }
    apply escape_prefix in E as (-> & E); auto. destruct (IH vs S1 T1 E) as (-> & ->). auto.
Qed.

(** ** Structures *)

(** [f], on the values [P] holds of, ends where it ends and determines the value up to [R]. *)
Definition delimited {A} (P : A -> Prop) (R : A -> A -> Prop) (f : A -> str) : Prop :=
  forall a b x y, P a -> P b -> f a ++ x = f b ++ y -> R a b /\ f a = f b.

Lemma delimited_rest {A} (P : A -> Prop) R f : delimited P R f -> forall a b x y, P a -> P b -> f a ++ x = f b ++ y -> R a b /\ x = y.
Proof. intros D a b x y A1 B1 E. destruct (D a b x y A1 B1 E) as (H & Q). split; [exact H|]. rewrite Q in E. now apply app_inv_head in E. Qed.

Fixpoint unpad (skip : nat) (s : str) : str :=
  match s with
  | [] => []
  | c :: s => match skip with S k => unpad k s | 0 => c :: unpad (if Ascii.eqb c LF then 4 else 0) s end
  end.
Definition after (nl : bool) (s : str) : bool := match s with [] => nl | _ => Ascii.eqb (List.last s LF) LF end.

Lemma unpad_pad s : forall (nl : bool) (x : str), unpad (if nl then 4 else 0) (pad nl s ++ x) = s ++ unpad (if after nl s then 4 else 0) x.
Proof.
  induction s as [|c s IH]; intros nl x; [destruct nl; reflexivity|]. cbn [pad].
  assert (H : unpad 0 (c :: pad (Ascii.eqb c LF) s ++ x) = (c :: s) ++ unpad (if after nl (c :: s) then 4 else 0) x).
  { cbn [unpad app]. rewrite IH. do 2 f_equal. destruct s; reflexivity. }
  destruct nl; [|exact H]. exact H.
Qed.

Lemma item_delimited {A} (P : A -> Prop) R f : delimited P R f -> delimited P R (fun a => item (f a)).
Proof.
  intros D a b x y A1 B1 E. unfold item in *.
  assert (Q : f a ++ (lit "," ++ [LF]) ++ unpad 4 x = f b ++ (lit "," ++ [LF]) ++ unpad 4 y).
  { apply (f_equal (unpad 4)) in E. rewrite (unpad_pad _ true x), (unpad_pad _ true y) in E.
    assert (L : forall z, after true (z ++ lit "," ++ [LF]) = true).
    { intros z. unfold after. destruct (z ++ lit "," ++ [LF]) eqn:Z; [reflexivity|]. rewrite <- Z. rewrite app_assoc, last_last. reflexivity. }
    rewrite !L in E. now rewrite <- !app_assoc in E. }
  destruct (D a b _ _ A1 B1 Q) as (H & Eq). split; [exact H|]. now rewrite Eq.
Qed.

Lemma item_blank s : exists t, item s = " "%char :: t.
Proof. unfold item. destruct s; cbn; eauto. Qed.

Lemma items_delimited {A} (P : A -> Prop) R f c : delimited P R f -> c <> " "%char ->
  forall l l' x y, Forall P l -> Forall P l' ->
    List.concat (map (fun a => item (f a)) l) ++ c :: x = List.concat (map (fun a => item (f a)) l') ++ c :: y ->
    Forall2 R l l' /\ map (fun a => item (f a)) l = map (fun a => item (f a)) l'.
Proof.
  intros D N. apply item_delimited in D. induction l as [|a l IH]; intros l' x y F F' E; destruct l' as [|b l']; cbn [map List.concat app] in E.
  - split; [constructor|reflexivity].
  - exfalso. destruct (item_blank (f b)) as (t & Q). rewrite Q in E. cbn [app] in E. congruence.
  - exfalso. destruct (item_blank (f a)) as (t & Q). rewrite Q in E. cbn [app] in E. congruence.
  - inversion F; inversion F'; subst. rewrite <- !app_assoc in E. destruct (D a b _ _ ltac:(assumption) ltac:(assumption) E) as (H & Q).
    rewrite Q in E. apply app_inv_head in E. destruct (IH l' x y ltac:(assumption) ltac:(assumption) E) as (I1 & I2).
    split; [now constructor|]. cbn [map]. now rewrite Q, I2.
Qed.

Lemma list_delimited {A} (P : A -> Prop) R f : delimited P R f -> delimited (Forall P) (Forall2 R) (fun l => list_text (map f l)).
Proof.
  intros D l l' x y F F' E. unfold list_text in *. destruct l as [|a l], l' as [|b l']; cbn [map] in E.
  - split; [constructor|reflexivity].
  - discriminate.
  - discriminate.
  - cbn [app lit list_ascii_of_string] in E. injection E as E.
    change (item (f a) :: map item (map f l)) with (map item (map f (a :: l))) in E. change (item (f b) :: map item (map f l')) with (map item (map f (b :: l'))) in E.
    rewrite !map_map, <- !app_assoc in E. destruct (items_delimited P R f "]"%char D ltac:(discriminate) (a :: l) (b :: l') x y F F') as (H & Q).
    { cbn [map List.concat]. rewrite <- !app_assoc. exact E. }
    split; [exact H|]. cbn [map] in Q |- *. injection Q as Q1 Q2. rewrite Q1. rewrite !map_map. now rewrite Q2.
Qed.

Lemma field_delimited {A} (P : A -> Prop) R (f : A -> str) name : delimited P R f -> delimited P R (fun a => name ++ lit ": " ++ f a).
Proof.
  intros D a b x y A1 B1 E. rewrite <- !app_assoc in E. apply app_inv_head in E. apply app_inv_head in E. destruct (D a b x y A1 B1 E) as (H & Q). split; [exact H|]. now rewrite Q.
Qed.

Lemma debug_delimited printable all : delimited (fun s => valid_utf8 s = true) eq (debug_text printable all).
Proof. intros s t x y S0 T0 E. destruct (debug_prefix printable all s t x y S0 T0 E) as (-> & _). auto. Qed.

Definition exe_ok (show : version -> str) (x : executable) : Prop :=
  valid_utf8 (ex_path x) = true /\ valid_utf8 (ex_name x) = true /\ forall v, valid_utf8 (show v) = true.

Lemma exe_delimited printable show : delimited (exe_ok show) (same_exe show) (executable_text printable show).
Proof.
  intros a b x y (A1 & A2 & A3) (B1 & B2 & B3) E. unfold executable_text, struct_text in *.
  assert (V : forall v, valid_utf8 (version_field show v) = true) by (intros [v|]; [apply A3|reflexivity]).
  assert (I : forall all name s t x y, valid_utf8 s = true -> valid_utf8 t = true ->
     item (name ++ lit ": " ++ debug_text printable all s) ++ x = item (name ++ lit ": " ++ debug_text printable all t) ++ y -> s = t /\ x = y).
  { intros all name s t x' y' S0 T0. apply (delimited_rest _ eq _ (item_delimited _ _ _ (field_delimited _ _ _ name (debug_delimited printable all))) s t x' y' S0 T0). }
  cbn [map List.concat fst snd] in *. rewrite app_nil_r in E. rewrite <- !app_assoc in E.
  apply app_inv_head in E. apply app_inv_head in E. apply app_inv_head in E.
  apply I in E as (Q1 & E); [|assumption..]. apply I in E as (Q2 & E); [|assumption..]. apply I in E as (Q3 & E); [|apply V..]. apply I in E as (Q4 & E); [|apply V..].
  split; [repeat split; assumption|]. now rewrite Q1, Q2, Q3, Q4.
Qed.

Definition same (show : version -> str) (et et' : executable * list str) : Prop := same_exe show (fst et) (fst et') /\ snd et = snd et'.

(** C111: two lists of targets for which the same text is printed, whatever follows it, are
    the same: the same executables, as far as shown, with the same targets, in the same order. *)
Theorem C111_determined :
  forall (printable : bytes -> bool) (show : version -> str) (l l' : list (executable * list str)) (x y : str),
    Forall (textual show) l -> Forall (textual show) l' ->
    listing_text printable show l ++ x = listing_text printable show l' ++ y ->
    Forall2 (fun et et' => same_exe show (fst et) (fst et') /\ snd et = snd et') l l' /\ x = y.
Proof.
  intros printable show l l' x y F F' E. unfold listing_text in E. rewrite <- !app_assoc in E.
  set (f := fun et : executable * list str => tuple_text [executable_text printable show (fst et); list_text (map (debug_text printable false) (snd et))]) in E.
  assert (D : delimited (textual show) (same show) f).
  { intros (a & ts) (b & us) p q (A1 & A2 & A3 & A4) (B1 & B2 & B3 & B4) E'. unfold f, tuple_text in E'. unfold f, tuple_text. cbn [fst snd map List.concat] in *.
    rewrite app_nil_r in E'. rewrite <- !app_assoc in E'. apply app_inv_head in E'. apply app_inv_head in E'.
    destruct (item_delimited _ _ _ (exe_delimited printable show) a b _ _ ltac:(repeat split; assumption) ltac:(repeat split; assumption) E') as (H & Q).
    rewrite Q in E'. apply app_inv_head in E'.
    destruct (item_delimited _ _ _ (list_delimited _ _ _ (debug_delimited printable false)) ts us _ _ A3 B3 E') as (H' & Q').
    assert (ts = us) as -> by (clear - H'; induction H'; congruence). split; [split; [exact H|reflexivity]|]. now rewrite Q. }
  destruct (delimited_rest _ _ _ (list_delimited _ _ _ D) l l' _ _ F F' E) as (H & Q). split; [exact H|]. now apply app_inv_head in Q.
Qed.
Print Assumptions C111_determined.

(** C111: if versions are printed differently and never as nothing, the lists are equal. *)
Theorem C111_exact :
  forall (printable : bytes -> bool) (show : version -> str) (l l' : list (executable * list str)),
    (forall v v', show v = show v' -> v = v') -> (forall v, show v <> []) ->
    Forall (textual show) l -> Forall (textual show) l' ->
    listing_text printable show l = listing_text printable show l' -> l = l'.
Proof.
  intros printable show l l' I N F F' E. destruct (C111_determined printable show l l' [] [] F F' ltac:(now rewrite E)) as (H & _). clear - H I N.
  induction H as [|(a & ts) (b & us) l l' ((Q1 & Q2 & Q3 & Q4) & Q5) H IH]; [reflexivity|]. cbn [fst snd] in *. f_equal; [|exact IH]. f_equal; [|exact Q5].
  assert (V : forall v v' : option version, match v with Some v => show v | None => [] end = match v' with Some v => show v | None => [] end -> v = v').
  { intros [v|] [v'|] Q; [f_equal; now apply I|destruct (N v Q)|destruct (N v' (eq_sym Q))|reflexivity]. }
  destruct a, b; cbn in *. apply V in Q3, Q4. congruence.
Qed.
Print Assumptions C111_exact.

(** C111: a target with an ordinary name is printed as its name in quotes, and a text shows
    control characters only as line feeds. *)
Theorem C111_ordinary :
  forall (printable : bytes -> bool) (all : bool) (s : str), ordinary s -> debug_text printable all s = quote :: s ++ [quote].
Proof.
  intros printable all s O. unfold debug_text. do 2 f_equal.
  induction O as [|c s (B & N) O IH]; [reflexivity|].
  assert (C : chars (c :: s) = [c] :: chars s).
  { cbn [chars]. destruct s as [|d s]; [reflexivity|]. inversion O as [|? ? (Bd & _) _]; subst.
    assert (is_cont d = false) as -> by (unfold is_cont, in_range; lia). reflexivity. }
  rewrite C. cbn [flat_map]. rewrite IH. change (c :: s) with ([c] ++ s). f_equal. unfold escape.
  assert ((byte c =? 0)%N = false /\ (byte c =? 9)%N = false /\ (byte c =? 10)%N = false /\ (byte c =? 13)%N = false) as (-> & -> & -> & ->) by lia.
  assert (Ascii.eqb c quote = false) as -> by (apply Ascii.eqb_neq; intros ->; apply N; cbn; auto).
  assert (Ascii.eqb c backslash = false) as -> by (apply Ascii.eqb_neq; intros ->; apply N; cbn; auto).
  assert (Ascii.eqb c apostrophe = false) as -> by (apply Ascii.eqb_neq; intros ->; apply N; cbn; auto).
  assert ((32 <=? byte c)%N && (byte c <? 127)%N = true) as -> by lia. reflexivity.
Qed.
Print Assumptions C111_ordinary.

(** ** Layout *)

(** Lines, each ended by a line feed. *)
Definition in_lines (ls : list str) : str := List.concat (map (fun l => l ++ [LF]) ls).
(** The lines printed for one executable and its targets. *)
Definition entry_lines (printable : bytes -> bool) (show : version -> str) (et : executable * list str) : list str :=
  let string := debug_text printable false in
  let version v := string match v with Some v => show v | None => [] end in
  [lit "    ("; lit "        Executable {";
   lit "            path: " ++ debug_text printable true (ex_path (fst et)) ++ lit ","; lit "            name: " ++ string (ex_name (fst et)) ++ lit ",";
   lit "            test_fuzz_version: " ++ version (ex_test_fuzz (fst et)) ++ lit ","; lit "            afl_version: " ++ version (ex_afl (fst et)) ++ lit ",";
   lit "        },"] ++
  match snd et with
  | [] => [lit "        [],"]
  | _ => [lit "        ["] ++ map (fun t => lit "            " ++ string t ++ lit ",") (snd et) ++ [lit "        ],"]
  end ++ [lit "    ),"].

Lemma one_line printable all s : valid_utf8 s = true -> ~ In LF (debug_text printable all s).
Proof.
  intros V I. unfold debug_text in I. cbn [In] in I. destruct I as [I|I]; [discriminate I|]. apply in_app_or in I as [I|[I|[]]]; [|discriminate I].
  apply in_flat_map in I as (u & Iu & I). pose proof (valid_chars s V) as C. rewrite Forall_forall in C. specialize (C u Iu). clear Iu V.
  assert (Hx : ~ In LF (backslash :: lit "u{" ++ hex (code u) ++ lit "}")).
  { intros J. cbn [In app lit] in J. destruct J as [J|J]; [discriminate J|]. apply in_app_or in J as [J|J]; [cbn in J; intuition discriminate|].
    apply in_app_or in J as [J|J]; [|cbn in J; intuition discriminate]. destruct (hex_spec (code u)) as [H _]. rewrite Forall_forall in H. specialize (H _ J).
    unfold is_hex in H. change (byte LF) with 10%N in H. lia. }
  unfold escape in I. destruct u as [|a [|b u]].
  - destruct (printable []) in I; [destruct I|contradiction].
  - destruct (byte a =? 0)%N; [cbn in I; intuition discriminate|]. destruct (byte a =? 9)%N; [cbn in I; intuition discriminate|].
    destruct (byte a =? 10)%N eqn:A; [cbn in I; intuition discriminate|]. destruct (byte a =? 13)%N; [cbn in I; intuition discriminate|].
    destruct (Ascii.eqb a quote); [cbn in I; intuition discriminate|]. destruct (Ascii.eqb a backslash); [cbn in I; intuition discriminate|].
    destruct (Ascii.eqb a apostrophe); [destruct all; cbn in I; intuition discriminate|].
    destruct ((32 <=? byte a)%N && _); [|contradiction]. destruct I as [->|[]]. discriminate A.
  - destruct (printable (a :: b :: u)); [|contradiction]. apply one_char_cases in C.
    assert (K : Forall (fun c => (128 <= byte c)%N) (a :: b :: u)) by (destruct C as [(? & E & ?)|[(? & ? & E & ?)|[(? & ? & ? & E & ?)|(? & ? & ? & ? & E & ?)]]]; [discriminate E|rewrite E..]; repeat constructor; lia).
    rewrite Forall_forall in K. specialize (K _ I). change (byte LF) with 10%N in K. lia.
Qed.

Lemma pad_cons nl c s : pad nl (c :: s) = (if nl then lit "    " else []) ++ c :: pad (Ascii.eqb c LF) s.
Proof. reflexivity. Qed.
Lemma pad_line l : ~ In LF l -> forall s, pad true (l ++ LF :: s) = lit "    " ++ l ++ LF :: pad true s.
Proof.
  intros N s. assert (H : forall l, ~ In LF l -> pad false (l ++ LF :: s) = l ++ LF :: pad true s).
  { clear. induction l as [|c l IH]; intros N; [reflexivity|]. change ((c :: l) ++ LF :: s) with (c :: (l ++ LF :: s)). rewrite pad_cons.
    destruct (Ascii.eqb c LF) eqn:E; [apply Ascii.eqb_eq in E; subst; exfalso; apply N; now left|]. rewrite IH; [reflexivity|]. intros I. apply N. now right. }
  destruct l as [|c l]; [reflexivity|]. change ((c :: l) ++ LF :: s) with (c :: (l ++ LF :: s)). rewrite pad_cons.
  destruct (Ascii.eqb c LF) eqn:E; [apply Ascii.eqb_eq in E; subst; exfalso; apply N; now left|]. rewrite H; [reflexivity|]. intros I. apply N. now right.
Qed.

Lemma pad_lines ls : Forall (fun l => ~ In LF l) ls -> pad true (in_lines ls) = in_lines (map (fun l => lit "    " ++ l) ls).
Proof.
  induction 1 as [|l ls N _ IH]; [reflexivity|]. unfold in_lines in *. cbn [map List.concat]. rewrite <- app_assoc. cbn [app].
  rewrite (pad_line l N). rewrite IH. rewrite <- !app_assoc. reflexivity.
Qed.

Lemma in_lines_app a b : in_lines (a ++ b) = in_lines a ++ in_lines b.
Proof. unfold in_lines. rewrite map_app. apply concat_app. Qed.
Lemma in_lines_cons l ls : in_lines (l :: ls) = l ++ LF :: in_lines ls.
Proof. unfold in_lines. cbn [map List.concat]. now rewrite <- app_assoc. Qed.

Notation indent := (fun l : str => lit "    " ++ l).
(** A text of these lines, the last without a line feed. *)
Definition laid (s : str) (ls : list str) (l : str) : Prop := s = in_lines ls ++ l /\ Forall (fun l => ~ In LF l) (ls ++ [l]).

Lemma item_laid s ls l : laid s ls l -> item s = in_lines (map indent (ls ++ [l ++ lit ","])).
Proof.
  intros (-> & F). unfold item. rewrite <- pad_lines.
  - rewrite in_lines_app, in_lines_cons. rewrite <- !app_assoc. reflexivity.
  - apply Forall_app in F as (F & G). apply Forall_app. split; [exact F|]. constructor; [|constructor]. inversion G as [|? ? N _]; subst.
    intros I. apply in_app_or in I as [I|[I|[]]]; [contradiction|discriminate I].
Qed.

Lemma no_lf_lit x : forallb (fun c => negb (Ascii.eqb c LF)) (lit x) = true -> ~ In LF (lit x).
Proof. intros F I. rewrite forallb_forall in F. specialize (F _ I). rewrite Ascii.eqb_refl in F. discriminate F. Qed.

Lemma indent_no_lf ls : Forall (fun l => ~ In LF l) ls -> Forall (fun l => ~ In LF l) (map indent ls).
Proof. intros F. apply Forall_forall. intros l I. apply in_map_iff in I as (k & <- & I). rewrite Forall_forall in F. specialize (F k I). intros J. apply in_app_or in J as [J|J]; [cbn in J; intuition discriminate|contradiction]. Qed.

Lemma comma_no_lf ls l : Forall (fun l => ~ In LF l) (ls ++ [l]) -> Forall (fun l => ~ In LF l) (ls ++ [l ++ lit ","]).
Proof.
  intros F. apply Forall_app in F as (F & G). apply Forall_app. split; [exact F|]. constructor; [|constructor]. inversion G as [|? ? N _]; subst.
  intros I. apply in_app_or in I as [I|[I|[]]]; [contradiction|discriminate I].
Qed.

(** What is between the brackets. *)
Definition inner (e : list str * str) : list str := map indent (fst e ++ [snd e ++ lit ","]).
Lemma items_laid (ss : list str) es : Forall2 (fun s e => laid s (fst e) (snd e)) ss es ->
  List.concat (map item ss) = in_lines (flat_map inner es) /\ Forall (fun l => ~ In LF l) (flat_map inner es).
Proof.
  induction 1 as [|s [ls l] ss es L F (IH & IN)]; [split; [reflexivity|constructor]|]. cbn [map List.concat flat_map fst snd] in *. rewrite IH, in_lines_app, (item_laid _ _ _ L). split; [reflexivity|].
  apply Forall_app. split; [|exact IN]. apply indent_no_lf, comma_no_lf, L.
Qed.

Lemma brackets_laid a b (ss : list str) es : Forall2 (fun s e => laid s (fst e) (snd e)) ss es -> ~ In LF a -> ~ In LF b ->
  laid (a ++ [LF] ++ List.concat (map item ss) ++ b) (a :: flat_map inner es) b.
Proof.
  intros F A B. apply items_laid in F as (E & N). split; [rewrite E, in_lines_cons, <- app_assoc; reflexivity|].
  cbn [app]. constructor; [exact A|]. apply Forall_app. split; [exact N|constructor; [exact B|constructor]].
Qed.

Lemma single_laid s : ~ In LF s -> laid s [] s.
Proof. intros N. split; [reflexivity|constructor; [exact N|constructor]]. Qed.

Lemma no_lf_app a b : ~ In LF a -> ~ In LF b -> ~ In LF (a ++ b).
Proof. intros A B I. apply in_app_or in I as [I|I]; contradiction. Qed.

(** C111: the text printed is laid out in lines; each target, and each fact about an executable, has
    a line of its own. *)
Theorem C111_layout :
  forall (printable : bytes -> bool) (show : version -> str) (l : list (executable * list str)),
    Forall (textual show) l ->
    listing_text printable show l =
      in_lines match l with [] => [lit "[]"] | _ => [lit "["] ++ flat_map (entry_lines printable show) l ++ [lit "]"] end.
Proof.
  intros printable show l T. destruct l as [|et0 l0]; [reflexivity|]. remember (et0 :: l0) as l eqn:El.
  assert (E : exists es, Forall2 (fun s e => laid s (fst e) (snd e)) (map (fun et => tuple_text [executable_text printable show (fst et); list_text (map (debug_text printable false) (snd et))]) l) es /\
                     flat_map inner es = flat_map (entry_lines printable show) l).
  { clear El. induction T as [|[x ts] l (Vp & Vn & Vt & Vv) T (es & F & E)]; [exists []; split; [constructor|reflexivity]|]. cbn [fst snd] in *.
    assert (Vf : forall v, valid_utf8 (version_field show v) = true) by (intros [v|]; [apply Vv|reflexivity]).
    assert (X : laid (executable_text printable show x) (lit "Executable {" :: flat_map inner
                 [([], lit "path: " ++ debug_text printable true (ex_path x)); ([], lit "name: " ++ debug_text printable false (ex_name x));
                  ([], lit "test_fuzz_version: " ++ debug_text printable false (version_field show (ex_test_fuzz x)));
                  ([], lit "afl_version: " ++ debug_text printable false (version_field show (ex_afl x)))]) (lit "}")).
    { apply (brackets_laid (lit "Executable {") (lit "}")
        [lit "path: " ++ debug_text printable true (ex_path x); lit "name: " ++ debug_text printable false (ex_name x);
         lit "test_fuzz_version: " ++ debug_text printable false (version_field show (ex_test_fuzz x)); lit "afl_version: " ++ debug_text printable false (version_field show (ex_afl x))]);
        [|now apply no_lf_lit..].
      repeat apply Forall2_cons; try apply Forall2_nil; apply single_laid, no_lf_app; try (now apply no_lf_lit); apply one_line; auto. }
    set (tl_ := match ts with [] => [] | _ => lit "[" :: flat_map inner (map (fun t => ([], debug_text printable false t)) ts) end).
    set (te := match ts with [] => lit "[]" | _ => lit "]" end).
    assert (Y : laid (list_text (map (debug_text printable false) ts)) tl_ te).
    { subst tl_ te. destruct ts as [|t ts]; [apply single_laid; now apply no_lf_lit|].
      apply (brackets_laid (lit "[") (lit "]") (map (debug_text printable false) (t :: ts))); [|now apply no_lf_lit..].
      clear - Vt. induction Vt as [|t' ts' V Vt IH]; [constructor|]. cbn [map]. constructor; [apply single_laid, one_line, V|exact IH]. }
    assert (P : laid (tuple_text [executable_text printable show x; list_text (map (debug_text printable false) ts)])
                  (lit "(" :: flat_map inner [(lit "Executable {" :: flat_map inner
                 [([], lit "path: " ++ debug_text printable true (ex_path x)); ([], lit "name: " ++ debug_text printable false (ex_name x));
                  ([], lit "test_fuzz_version: " ++ debug_text printable false (version_field show (ex_test_fuzz x)));
                  ([], lit "afl_version: " ++ debug_text printable false (version_field show (ex_afl x)))], lit "}"); (tl_, te)]) (lit ")")).
    { apply (brackets_laid (lit "(") (lit ")") [executable_text printable show x; list_text (map (debug_text printable false) ts)]); [|now apply no_lf_lit..].
      constructor; [exact X|]. constructor; [exact Y|constructor]. }
    match type of P with laid _ ?a ?b => exists ((a, b) :: es) end. split; [cbn [map]; constructor; [exact P|exact F]|].
    change (flat_map inner (?a :: es)) with (inner a ++ flat_map inner es). rewrite E. cbn [flat_map]. f_equal. clear. subst tl_ te.
    assert (H : forall l : list str, flat_map inner (map (fun t => ([], debug_text printable false t)) l) = map (fun t => lit "    " ++ debug_text printable false t ++ lit ",") l)
      by (induction l as [|t l IH]; [reflexivity|]; cbn [map flat_map]; rewrite IH; reflexivity).
    destruct ts as [|t ts]; [reflexivity|]. rewrite H. clear H. unfold entry_lines, inner, version_field. cbn [snd fst]. remember (t :: ts) as l eqn:El.
    cbn [flat_map fst snd]. rewrite app_nil_r. rewrite !map_app. cbn [map]. rewrite !map_app, !map_map, El. cbn [map app]. do 8 f_equal. rewrite app_nil_r, map_map. reflexivity. }
  destruct E as (es & F & E). unfold listing_text.
  destruct (brackets_laid (lit "[") (lit "]") _ es F) as (L & _); [now apply no_lf_lit..|]. rewrite E in L.
  assert (U : forall ss, ss <> [] -> list_text ss = lit "[" ++ [LF] ++ List.concat (map item ss) ++ lit "]") by (intros [|a ss] N; [contradiction|reflexivity]).
  rewrite U by (rewrite El; discriminate). rewrite L. rewrite El at 2. rewrite <- El.
  change ([lit "["] ++ ?a ++ ?b) with (lit "[" :: (a ++ b)). rewrite !in_lines_cons, in_lines_app. rewrite <- !app_assoc. reflexivity.
Qed.
Print Assumptions C111_layout.

Definition ex_show (v : version) : str := match v_pre v with [] => lit "7.2.5" | _ => lit "7.2.5-rc" end.
Example C111_example :
  let x := {| ex_path := lit "/t/debug/deps/k-1"; ex_name := lit "k"; ex_test_fuzz := Some (mkversion 7 2 5 []); ex_afl := None |} in
  let printable u := (code u =? 233)%N in
  listing_text printable ex_show [(x, [lit "a::f"; map ascii_of_nat [195; 169; 39; 34; 10; 226; 128; 168]])]
  = List.concat (map (fun l => lit l ++ [LF])
      ["["; "    ("; "        Executable {"; "            path: ""/t/debug/deps/k-1"","; "            name: ""k"",";
       "            test_fuzz_version: ""7.2.5"","; "            afl_version: """","; "        },"; "        ["; "            ""a::f"","]%string)
    ++ lit "            """ ++ map ascii_of_nat [195; 169] ++ lit "'\""\n\u{2028}""," ++ [LF]
    ++ List.concat (map (fun l => lit l ++ [LF]) ["        ],"; "    ),"; "]"]%string) /\
  listing_text printable ex_show [] = lit "[]" ++ [LF].
Proof. vm_compute. auto. Qed.
