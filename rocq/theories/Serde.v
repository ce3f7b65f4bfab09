(** Serde's data model and the structure the two serialisation formats share
    (internal/src/serde_format.rs:34-79; the formats themselves are the external crates
    postcard 1.1.3 and bincode 2.0.1). *)
From Coq Require Import List Ascii String Bool Arith Lia NArith ZArith ZifyBool ZifyN ZifyNat.
From Verif Require Import Base Utf8.
Import ListNotations.
Local Open Scope nat_scope.

(** Integer widths; [usize] and [isize] are 64 bits wide. *)
Inductive width := W16 | W32 | W64 | W128.
Definition bits (w : width) : N := match w with W16 => 16 | W32 => 32 | W64 => 64 | W128 => 128 end.

(** Types as the (derived or standard) [Serialize] and [Deserialize] implementations see
    them.  Structs and tuples are [TTuple], newtypes are transparent, a variant is given
    by the type of its payload.  [TNamed n] refers to a table of definitions, so that
    recursive types are covered. *)
Inductive ty :=
| TBool | TU8 | TI8 | TUInt (w : width) | TSInt (w : width) | TF32 | TF64 | TChar
| TString | TBytes | TUnit | TOption (t : ty) | TSeq (t : ty) | TTuple (ts : list ty)
| TMap (k t : ty) | TEnum (ts : list ty) | TNamed (n : nat).

(** Values as passed to a serialiser.  Floating point numbers are their little-endian
    bytes, a character is its UTF-8 encoding. *)
Inductive val :=
| VBool (b : bool) | VU8 (c : ascii) | VI8 (c : ascii) | VUInt (w : width) (n : N) | VSInt (w : width) (z : Z)
| VF32 (b : bytes) | VF64 (b : bytes) | VChar (u : bytes) | VString (s : bytes) | VBytes (s : bytes) | VUnit
| VNone | VSome (v : val) | VSeq (vs : list val) | VTuple (vs : list val) | VMap (kvs : list (val * val))
| VEnum (i : nat) (v : val).

(** A single character. *)
Definition one_char (u : bytes) : Prop :=
  valid_utf8 u = true /\ exists c r, u = c :: r /\ Forall (fun d => is_cont d = true) r.

Definition fits_len {A} (l : list A) : Prop := (N.of_nat (List.length l) < 2 ^ 64)%N.

Lemma Forall2_impl {A B} (P Q : A -> B -> Prop) l l' : (forall a b, P a b -> Q a b) -> Forall2 P l l' -> Forall2 Q l l'.
Proof. intros H. induction 1; constructor; auto. Qed.

Section Typing.
  Variable env : nat -> ty.

  (** The values of a type. *)
  Inductive wt : ty -> val -> Prop :=
  | wt_bool b : wt TBool (VBool b)
  | wt_u8 c : wt TU8 (VU8 c)
  | wt_i8 c : wt TI8 (VI8 c)
  | wt_uint w n : (n < 2 ^ bits w)%N -> wt (TUInt w) (VUInt w n)
  | wt_sint w z : (- 2 ^ (Z.of_N (bits w) - 1) <= z < 2 ^ (Z.of_N (bits w) - 1))%Z -> wt (TSInt w) (VSInt w z)
  | wt_f32 b : List.length b = 4 -> wt TF32 (VF32 b)
  | wt_f64 b : List.length b = 8 -> wt TF64 (VF64 b)
  | wt_char u : one_char u -> wt TChar (VChar u)
  | wt_string s : valid_utf8 s = true -> fits_len s -> wt TString (VString s)
  | wt_bytes s : fits_len s -> wt TBytes (VBytes s)
  | wt_unit : wt TUnit VUnit
  | wt_none t : wt (TOption t) VNone
  | wt_some t v : wt t v -> wt (TOption t) (VSome v)
  | wt_seq t vs : fits_len vs -> Forall (wt t) vs -> wt (TSeq t) (VSeq vs)
  | wt_tuple ts vs : Forall2 wt ts vs -> wt (TTuple ts) (VTuple vs)
  | wt_map k t kvs : fits_len kvs -> Forall (fun kv => wt k (fst kv) /\ wt t (snd kv)) kvs -> wt (TMap k t) (VMap kvs)
  | wt_enum ts i t v : nth_error ts i = Some t -> (N.of_nat i < 2 ^ 32)%N -> wt t v -> wt (TEnum ts) (VEnum i v)
  | wt_named n v : wt (env n) v -> wt (TNamed n) v.

  (** The same with a bound on the height, which is what decoding recurses over. *)
  Fixpoint wtn (f : nat) (t : ty) (v : val) : Prop :=
    match f with
    | 0 => False
    | S f =>
        match t, v with
        | TBool, VBool _ | TU8, VU8 _ | TI8, VI8 _ | TUnit, VUnit => True
        | TUInt w, VUInt w' n => w = w' /\ (n < 2 ^ bits w)%N
        | TSInt w, VSInt w' z => w = w' /\ (- 2 ^ (Z.of_N (bits w) - 1) <= z < 2 ^ (Z.of_N (bits w) - 1))%Z
        | TF32, VF32 b => List.length b = 4
        | TF64, VF64 b => List.length b = 8
        | TChar, VChar u => one_char u
        | TString, VString s => valid_utf8 s = true /\ fits_len s
        | TBytes, VBytes s => fits_len s
        | TOption t, VNone => True
        | TOption t, VSome v => wtn f t v
        | TSeq t, VSeq vs => fits_len vs /\ Forall (wtn f t) vs
        | TTuple ts, VTuple vs => Forall2 (wtn f) ts vs
        | TMap k t, VMap kvs => fits_len kvs /\ Forall (fun kv => wtn f k (fst kv) /\ wtn f t (snd kv)) kvs
        | TEnum ts, VEnum i v => exists t, nth_error ts i = Some t /\ (N.of_nat i < 2 ^ 32)%N /\ wtn f t v
        | TNamed n, v => wtn f (env n) v
        | _, _ => False
        end
    end.

  Lemma wtn_S f : forall t v, wtn f t v -> wtn (S f) t v.
  Proof.
    induction f as [|f IH]; intros t v H; [destruct H|].
    destruct t, v; cbn [wtn] in H; try exact H; try (now apply IH in H).
    - destruct H as [L F]. split; [exact L|]. eapply Forall_impl; [|exact F]. auto.
    - cbn [wtn]. eapply Forall2_impl; [|exact H]. auto.
    - destruct H as [L F]. split; [exact L|]. eapply Forall_impl; [|exact F]. cbn beta. intros a [A B]. auto.
    - destruct H as (t & E & I & H). exists t. auto.
  Qed.

  Lemma wtn_le f g t v : f <= g -> wtn f t v -> wtn g t v.
  Proof. induction 1; auto using wtn_S. Qed.

  Lemma Forall2_ex {A B} (P : nat -> A -> B -> Prop) l l' :
    (forall f g a b, f <= g -> P f a b -> P g a b) -> Forall2 (fun a b => exists f, P f a b) l l' -> exists f, Forall2 (P f) l l'.
  Proof.
    intros M. induction 1 as [|a b l l' [f H] F [g IH]]; [exists 0; constructor|].
    exists (Nat.max f g). constructor; [eapply M; [|exact H]; lia|]. eapply Forall2_impl; [|exact IH].
    intros x y. apply M. lia.
  Qed.

  Lemma Forall_ex {A} (P : nat -> A -> Prop) l :
    (forall f g a, f <= g -> P f a -> P g a) -> Forall (fun a => exists f, P f a) l -> exists f, Forall (P f) l.
  Proof.
    intros M. induction 1 as [|a l [f H] F [g IH]]; [exists 0; constructor|].
    exists (Nat.max f g). constructor; [eapply M; [|exact H]; lia|]. eapply Forall_impl; [|exact IH].
    intros x. apply M. lia.
  Qed.

  Lemma wt_wtn : forall t v, wt t v -> exists f, wtn f t v.
  Proof.
    fix IH 3. intros t v H. destruct H.
    - now exists 1. - now exists 1. - now exists 1.
    - exists 1. cbn; auto. - exists 1. cbn -[Z.pow Z.sub Z.of_N Z.opp]; auto. - exists 1; cbn; auto. - exists 1; cbn; auto.
    - exists 1; cbn; auto. - exists 1; cbn; auto. - exists 1; cbn; auto. - now exists 1. - now exists 1.
    - destruct (IH _ _ H) as [f Hf]. now exists (S f).
    - assert (exists f, Forall (wtn f t) vs) as [f Hf].
      { apply Forall_ex; [intros; eapply wtn_le; eauto|]. clear H. induction H0; constructor; auto. }
      exists (S f). cbn. auto.
    - assert (exists f, Forall2 (wtn f) ts vs) as [f Hf].
      { apply Forall2_ex; [intros; eapply wtn_le; eauto|]. induction H; constructor; auto. }
      exists (S f). exact Hf.
    - assert (exists f, Forall (fun kv => wtn f k (fst kv) /\ wtn f t (snd kv)) kvs) as [f Hf].
      { apply (Forall_ex (fun f kv => wtn f k (fst kv) /\ wtn f t (snd kv))).
        - intros f g a L [A B]. split; eapply wtn_le; eauto.
        - clear H. induction H0 as [|kv kvs [A B] F IHF]; constructor; auto.
          destruct (IH _ _ A) as [f Hf], (IH _ _ B) as [g Hg]. exists (Nat.max f g).
          split; eapply wtn_le; [|exact Hf| |exact Hg]; lia. }
      exists (S f). cbn. auto.
    - destruct (IH _ _ H1) as [f Hf]. exists (S f). cbn. eauto.
    - destruct (IH _ _ H) as [f Hf]. exists (S f). exact Hf.
  Qed.

  Lemma wtn_wt : forall f t v, wtn f t v -> wt t v.
  Proof.
    induction f as [|f IH]; intros t v H; [destruct H|].
    destruct t; try (cbn [wtn] in H; constructor; now apply IH); destruct v; cbn [wtn] in H; try (now destruct H); try (now constructor).
    - destruct H as [<- H]. now constructor.
    - destruct H as [<- H]. now constructor.
    - constructor; auto.
    - destruct H as [L F]. constructor; [exact L|]. eapply Forall_impl; [|exact F]. auto.
    - constructor. eapply Forall2_impl; [|exact H]. auto.
    - destruct H as [L F]. constructor; [exact L|]. eapply Forall_impl; [|exact F]. cbn beta. intros a [A B]. auto.
    - destruct H as (t & E & I & H). econstructor; eauto.
  Qed.
End Typing.

(** ** Readers *)

(** The decoder's state: the bytes not yet read, and a budget (what is left of
    postcard's buffer; what may still be claimed under bincode's limit). *)
Definition st := (bytes * N)%type.
Inductive res (A : Type) := Ok (a : A) (s : st) | Fail | Over.
Arguments Ok {A}. Arguments Fail {A}. Arguments Over {A}.
(** [Over]: the recursion is deeper than the given bound (the stack). *)
Definition rd (A : Type) := st -> res A.

Definition rret {A} (a : A) : rd A := fun s => Ok a s.
Definition rfail {A} : rd A := fun _ => Fail.
Definition rbind {A B} (x : rd A) (f : A -> rd B) : rd B := fun s =>
  match x s with Ok a s' => f a s' | Fail => Fail | Over => Over end.

(** [n] elements, one after the other. *)
Fixpoint rrepeat {A} (x : rd A) (n : nat) : rd (list A) :=
  match n with
  | 0 => rret []
  | S n => rbind x (fun a => rbind (rrepeat x n) (fun l => rret (a :: l)))
  end.
Fixpoint rlist {A} (xs : list (rd A)) : rd (list A) :=
  match xs with
  | [] => rret []
  | x :: xs => rbind x (fun a => rbind (rlist xs) (fun l => rret (a :: l)))
  end.

(** What a format decides. *)
Record codec := {
  c_uint : N -> bytes;                 (** an unsigned integer of at least 16 bits *)
  c_char : bytes -> bytes;             (** a character *)
  d_byte : rd ascii;
  d_uint : width -> rd N;
  d_char : rd bytes;
  d_block : N -> rd bytes;             (** so many raw bytes *)
  c_spend : N -> N -> option N;        (** budget, amount *)
  k_byte : list N; k_uint : width -> list N; k_char : bytes -> list N;   (** amounts spent on each *)
}.

(** zigzag encoding of signed integers (both formats). *)
Definition zigzag (z : Z) : N := if (z <? 0)%Z then Z.to_N (-2 * z - 1) else Z.to_N (2 * z).
Definition unzigzag (n : N) : Z := if N.even n then Z.of_N (n / 2) else (- Z.of_N (n / 2) - 1)%Z.

Definition bool_byte (b : bool) : ascii := if b then ascii_of_N 1 else ascii_of_N 0.

Section Codec.
  Variable c : codec.

  Definition e_len {A} (l : list A) : bytes := c_uint c (N.of_nat (List.length l)).

  (** Serialisation. *)
  Fixpoint enc (v : val) : bytes :=
    match v with
    | VBool b => [bool_byte b]
    | VU8 a | VI8 a => [a]
    | VUInt _ n => c_uint c n
    | VSInt _ z => c_uint c (zigzag z)
    | VF32 b | VF64 b => b
    | VChar u => c_char c u
    | VString s | VBytes s => e_len s ++ s
    | VUnit => []
    | VNone => [bool_byte false]
    | VSome v => bool_byte true :: enc v
    | VSeq vs => e_len vs ++ List.concat (map enc vs)
    | VTuple vs => List.concat (map enc vs)
    | VMap kvs => e_len kvs ++ List.concat (map (fun kv => enc (fst kv) ++ enc (snd kv)) kvs)
    | VEnum i v => c_uint c (N.of_nat i) ++ enc v
    end.

  (** The amounts spent when decoding. *)
  Fixpoint costs (v : val) : list N :=
    match v with
    | VBool _ | VU8 _ | VI8 _ | VNone => k_byte c
    | VUInt w _ | VSInt w _ => k_uint c w
    | VF32 b | VF64 b => [N.of_nat (List.length b)]
    | VChar u => k_char c u
    | VString s | VBytes s => k_uint c W64 ++ [N.of_nat (List.length s)]
    | VUnit => []
    | VSome v => k_byte c ++ costs v
    | VSeq vs => k_uint c W64 ++ List.concat (map costs vs)
    | VTuple vs => List.concat (map costs vs)
    | VMap kvs => k_uint c W64 ++ List.concat (map (fun kv => costs (fst kv) ++ costs (snd kv)) kvs)
    | VEnum _ v => k_uint c W32 ++ costs v
    end.

  Fixpoint spends (b : N) (l : list N) : option N :=
    match l with
    | [] => Some b
    | a :: l => match c_spend c b a with Some b' => spends b' l | None => None end
    end.

  Variable env : nat -> ty.

  Definition d_bool : rd bool := rbind (d_byte c) (fun a =>
    if (byte a =? 0)%N then rret false else if (byte a =? 1)%N then rret true else rfail).

  (** Deserialisation. *)
  Fixpoint dec (f : nat) (t : ty) : rd val :=
    match f with
    | 0 => fun _ => Over
    | S f =>
        match t with
        | TBool => rbind d_bool (fun b => rret (VBool b))
        | TU8 => rbind (d_byte c) (fun a => rret (VU8 a))
        | TI8 => rbind (d_byte c) (fun a => rret (VI8 a))
        | TUInt w => rbind (d_uint c w) (fun n => rret (VUInt w n))
        | TSInt w => rbind (d_uint c w) (fun n => rret (VSInt w (unzigzag n)))
        | TF32 => rbind (d_block c 4) (fun b => rret (VF32 b))
        | TF64 => rbind (d_block c 8) (fun b => rret (VF64 b))
        | TChar => rbind (d_char c) (fun u => rret (VChar u))
        | TString => rbind (d_uint c W64) (fun n => rbind (d_block c n) (fun s =>
                     if valid_utf8 s then rret (VString s) else rfail))
        | TBytes => rbind (d_uint c W64) (fun n => rbind (d_block c n) (fun s => rret (VBytes s)))
        | TUnit => rret VUnit
        | TOption t => rbind d_bool (fun b => if b then rbind (dec f t) (fun v => rret (VSome v)) else rret VNone)
        | TSeq t => rbind (d_uint c W64) (fun n => rbind (rrepeat (dec f t) (N.to_nat n)) (fun vs => rret (VSeq vs)))
        | TTuple ts => rbind (rlist (map (dec f) ts)) (fun vs => rret (VTuple vs))
        | TMap k t => rbind (d_uint c W64) (fun n =>
                      rbind (rrepeat (rbind (dec f k) (fun x => rbind (dec f t) (fun y => rret (x, y)))) (N.to_nat n)) (fun kvs =>
                      rret (VMap kvs)))
        | TEnum ts => rbind (d_uint c W32) (fun n =>
                      match nth_error ts (N.to_nat n) with
                      | Some t => rbind (dec f t) (fun v => rret (VEnum (N.to_nat n) v))
                      | None => rfail
                      end)
        | TNamed n => dec f (env n)
        end
    end.

  (** ** What is required of a format *)

  (** Reading something that was written gives it back if the budget allows and fails
      otherwise, whatever follows. *)
  Definition reads {A} (x : rd A) (e : bytes) (k : list N) (a : A) : Prop :=
    forall rest b, x (e ++ rest, b) = match spends b k with Some b' => Ok a (rest, b') | None => Fail end.

  Record laws : Prop := {
    l_byte : forall a, reads (d_byte c) [a] (k_byte c) a;
    l_uint : forall w n, (n < 2 ^ bits w)%N -> reads (d_uint c w) (c_uint c n) (k_uint c w) n;
    l_char : forall u, one_char u -> reads (d_char c) (c_char c u) (k_char c u) u;
    l_block : forall s, reads (d_block c (N.of_nat (List.length s))) s [N.of_nat (List.length s)] s;
  }.

  Lemma spends_app b k1 k2 : spends b (k1 ++ k2) = match spends b k1 with Some b' => spends b' k2 | None => None end.
  Proof. revert b. induction k1 as [|a k1 IH]; intros b; [reflexivity|]. cbn [app spends]. destruct (c_spend c b a); auto. Qed.

  Lemma reads_ret {A} (a : A) : reads (rret a) [] [] a.
  Proof. intros rest b. reflexivity. Qed.

  Lemma reads_bind {A B} (x : rd A) (f : A -> rd B) e1 k1 a e2 k2 v :
    reads x e1 k1 a -> reads (f a) e2 k2 v -> reads (rbind x f) (e1 ++ e2) (k1 ++ k2) v.
  Proof.
    intros X F rest b. unfold rbind. rewrite <- app_assoc, X, spends_app. destruct (spends b k1); [apply F|reflexivity].
  Qed.

  Lemma reads_map {A B} (x : rd A) (g : A -> B) e k a : reads x e k a -> reads (rbind x (fun a => rret (g a))) e k (g a).
  Proof.
    intros X rest b. unfold rbind. rewrite X. destruct (spends b k); reflexivity.
  Qed.

  Lemma reads_if {A B} (x : rd A) (f : A -> rd B) e k a v :
    reads x e k a -> f a = rret v -> reads (rbind x f) e k v.
  Proof. intros X E rest b. unfold rbind. rewrite X. destruct (spends b k); [now rewrite E|reflexivity]. Qed.

  Lemma reads_repeat {A} (x : rd A) (e : A -> bytes) (k : A -> list N) l :
    Forall (fun a => reads x (e a) (k a) a) l ->
    reads (rrepeat x (List.length l)) (List.concat (map e l)) (List.concat (map k l)) l.
  Proof.
    induction 1 as [|a l H F IH]; [apply reads_ret|]. cbn [List.length rrepeat map List.concat].
    eapply reads_bind; [exact H|]. now apply (reads_map _ (cons a)).
  Qed.

  Lemma reads_list {A T} (x : T -> rd A) (e : A -> bytes) (k : A -> list N) ts l :
    Forall2 (fun t a => reads (x t) (e a) (k a) a) ts l ->
    reads (rlist (map x ts)) (List.concat (map e l)) (List.concat (map k l)) l.
  Proof.
    induction 1 as [|t a ts l H F IH]; [apply reads_ret|]. cbn [rlist map List.concat].
    eapply reads_bind; [exact H|]. now apply (reads_map _ (cons a)).
  Qed.

  Hypothesis L : laws.

  Lemma reads_bool b : reads d_bool [bool_byte b] (k_byte c) b.
  Proof. unfold d_bool. eapply reads_if; [apply (l_byte L)|]. now destruct b. Qed.

  Lemma unzigzag_zigzag z : unzigzag (zigzag z) = z.
  Proof.
    unfold unzigzag, zigzag. destruct (z <? 0)%Z eqn:E.
    - replace (Z.to_N (-2 * z - 1)) with (1 + 2 * Z.to_N (- z - 1))%N by lia.
      rewrite N.even_add_mul_2. cbn [N.even]. replace ((1 + 2 * Z.to_N (- z - 1)) / 2)%N with (Z.to_N (- z - 1)); [lia|].
      rewrite N.mul_comm, N.div_add by lia. reflexivity.
    - replace (Z.to_N (2 * z)) with (2 * Z.to_N z)%N by lia. rewrite N.even_mul. cbn [N.even orb].
      rewrite N.mul_comm, N.div_mul by lia. lia.
  Qed.

  Lemma zigzag_fits w z : (- 2 ^ (Z.of_N (bits w) - 1) <= z < 2 ^ (Z.of_N (bits w) - 1))%Z -> (zigzag z < 2 ^ bits w)%N.
  Proof.
    intros H. unfold zigzag.
    assert (P : (2 ^ Z.of_N (bits w) = 2 * 2 ^ (Z.of_N (bits w) - 1))%Z).
    { rewrite <- Z.pow_succ_r by (destruct w; cbn; lia). f_equal. lia. }
    assert (Q : Z.of_N (2 ^ bits w) = (2 ^ Z.of_N (bits w))%Z) by (rewrite N2Z.inj_pow; reflexivity).
    destruct (z <? 0)%Z eqn:E; lia.
  Qed.

  Lemma reads_len {A} (l : list A) : fits_len l -> reads (d_uint c W64) (e_len l) (k_uint c W64) (N.of_nat (List.length l)).
  Proof. intros F. apply (l_uint L W64). exact F. Qed.

  (** Every value is read back. *)
  Theorem reads_value : forall f t v, wtn env f t v -> reads (dec f t) (enc v) (costs v) v.
  Proof.
    induction f as [|f IH]; intros t v H; [destruct H|].
    destruct t; try (cbn [wtn] in H; cbn [dec]; now apply IH);
      destruct v; cbn [wtn] in H; try (now destruct H); cbn [dec enc costs].
    - apply (reads_map _ VBool), reads_bool.
    - apply (reads_map _ VU8), (l_byte L).
    - apply (reads_map _ VI8), (l_byte L).
    - destruct H as [<- H]. apply (reads_map _ (VUInt w)). now apply (l_uint L).
    - destruct H as [<- H]. eapply reads_if; [apply (l_uint L); now apply zigzag_fits|]. now rewrite unzigzag_zigzag.
    - apply (reads_map _ VF32). change 4%N with (N.of_nat 4). rewrite <- H. apply (l_block L).
    - apply (reads_map _ VF64). change 8%N with (N.of_nat 8). rewrite <- H. apply (l_block L).
    - apply (reads_map _ VChar), (l_char L), H.
    - destruct H as [V F]. eapply reads_bind; [apply reads_len, F|]. eapply reads_if; [apply (l_block L)|]. now rewrite V.
    - eapply reads_bind; [apply reads_len, H|]. apply (reads_map _ VBytes), (l_block L).
    - eapply reads_if; [apply reads_bool|]. reflexivity.
    - change (bool_byte true :: enc v) with ([bool_byte true] ++ enc v).
      eapply reads_bind; [apply reads_bool|]. cbn beta iota. apply (reads_map _ VSome). now apply IH.
    - destruct H as [F H]. eapply reads_bind; [apply reads_len, F|]. cbn beta. apply (reads_map _ VSeq).
      rewrite Nnat.Nat2N.id. apply reads_repeat. eapply Forall_impl; [|exact H]. cbn beta. auto.
    - apply (reads_map _ VTuple). apply reads_list. eapply Forall2_impl; [|exact H]. auto.
    - destruct H as [F H]. eapply reads_bind; [apply reads_len, F|]. cbn beta. apply (reads_map _ VMap).
      rewrite Nnat.Nat2N.id.
      apply (reads_repeat _ (fun kv => enc (fst kv) ++ enc (snd kv)) (fun kv => costs (fst kv) ++ costs (snd kv))).
      eapply Forall_impl; [|exact H]. cbn beta. intros [x y] [A B]. cbn [fst snd] in *.
      eapply reads_bind; [apply IH, A|]. apply (reads_map _ (pair x)). now apply IH.
    - destruct H as (t & E & I & H). eapply reads_bind; [apply (l_uint L W32), I|]. cbn beta. rewrite Nnat.Nat2N.id, E.
      apply (reads_map _ (VEnum i)). now apply IH.
  Qed.
End Codec.
