(** C14-C18: the serialisation formats. *)
From Coq Require Import List Ascii String Bool Arith Lia NArith ZArith ZifyBool ZifyN ZifyNat.
From Verif Require Import Base Utf8 Sha1 Serde SerdeFacts Postcard.
From Verif Require Bincode.
Import ListNotations.
Local Open Scope nat_scope.

(** The strings and byte arrays inside a value. *)
Fixpoint strings (v : val) : list bytes :=
  match v with
  | VString s | VBytes s => [s]
  | VSome v | VEnum _ v => strings v
  | VSeq vs | VTuple vs => List.concat (map strings vs)
  | VMap kvs => List.concat (map (fun kv => strings (fst kv) ++ strings (snd kv)) kvs)
  | _ => []
  end.

(** Number of bytes in the strings, byte arrays, floating point numbers and characters of a value. *)
Fixpoint buffered (v : val) : N :=
  match v with
  | VString s | VBytes s | VF32 s | VF64 s | VChar s => N.of_nat (List.length s)
  | VSome v | VEnum _ v => buffered v
  | VSeq vs | VTuple vs => fold_right N.add 0%N (map buffered vs)
  | VMap kvs => fold_right N.add 0%N (map (fun kv => buffered (fst kv) + buffered (snd kv))%N kvs)
  | _ => 0%N
  end.

Definition short (s : bytes) : Prop := (N.of_nat (List.length s) <= 2048)%N.

(** ** The budget *)

Lemma Forall_concat {A B} (Q : B -> Prop) (f : A -> list B) l : Forall Q (List.concat (map f l)) <-> Forall (fun a => Forall Q (f a)) l.
Proof.
  induction l as [|a l IH]; cbn; [split; constructor|]. rewrite Forall_app, Forall_cons_iff, IH. reflexivity.
Qed.

Lemma Forall_iff_in {A} (P Q : A -> Prop) l : Forall (fun a => P a <-> Q a) l -> (Forall P l <-> Forall Q l).
Proof. induction 1 as [|a l H F IH]; [split; constructor|]. rewrite !Forall_cons_iff, H, IH. reflexivity. Qed.

Lemma Forall2_right {A B} (P : A -> B -> Prop) (Q : B -> Prop) l l' : Forall2 P l l' -> (forall a b, P a b -> Q b) -> Forall Q l'.
Proof. intros F H. induction F; constructor; eauto. Qed.

(** Without [sticky] everything fits exactly if every string does. *)
Lemma short_costs z env : forall f t v, wtn env f t v ->
  (Forall (fun n => (n <= 2048)%N) (costs (postcard z false) v) <-> Forall short (strings v)).
Proof.
  assert (E : forall s, (N.of_nat (List.length s) <= 8)%N -> Forall (fun n => (n <= 2048)%N) [N.of_nat (@List.length ascii s)] <-> Forall short []).
  { intros s B. split; [constructor|]. intros _. constructor; [lia|constructor]. }
  induction f as [|f IH]; intros t v W; [destruct W|].
  destruct t; try (cbn [wtn] in W; now apply (IH _ _ W)); destruct v; cbn [wtn] in W; try (now destruct W);
    cbn [costs strings postcard k_byte k_uint k_char app]; try (split; intros _; constructor; fail).
  - apply E. lia.
  - apply E. lia.
  - pose proof (one_char_len _ W). apply E. lia.
  - rewrite !Forall_cons_iff. unfold short. split; intros [? _]; split; auto; constructor.
  - rewrite !Forall_cons_iff. unfold short. split; intros [? _]; split; auto; constructor.
  - now apply (IH _ _ W).
  - rewrite !Forall_concat. destruct W as [_ W]. apply Forall_iff_in. eapply Forall_impl; [|exact W]. intros a. apply IH.
  - rewrite !Forall_concat. apply Forall_iff_in. eapply Forall2_right; [exact W|]. intros a b. apply IH.
  - rewrite (Forall_concat _ (fun kv => costs _ (fst kv) ++ costs _ (snd kv))), (Forall_concat _ (fun kv => strings (fst kv) ++ strings (snd kv))).
    destruct W as [_ W]. apply Forall_iff_in. eapply Forall_impl; [|exact W]. cbn beta. intros [a b] [A B]. cbn [fst snd] in *.
    rewrite !Forall_app. now rewrite (IH _ _ A), (IH _ _ B).
  - destruct W as (t & _ & _ & W). now apply (IH _ _ W).
Qed.

Definition sum (l : list N) : N := fold_right N.add 0%N l.
Lemma sum_app a b : sum (a ++ b) = (sum a + sum b)%N.
Proof. unfold sum. induction a as [|x a IH]; cbn [app fold_right]; lia. Qed.
Lemma sum_concat {A} (f : A -> list N) l : sum (List.concat (map f l)) = fold_right N.add 0%N (map (fun a => sum (f a)) l).
Proof. induction l as [|a l IH]; [reflexivity|]. cbn [map List.concat fold_right]. now rewrite sum_app, IH. Qed.

Lemma sum_costs z k env : forall f t v, wtn env f t v -> sum (costs (postcard z k) v) = buffered v.
Proof.
  assert (M : forall A (g h : A -> N) l, Forall (fun a => g a = h a) l -> fold_right N.add 0%N (map g l) = fold_right N.add 0%N (map h l)).
  { intros A g h l F. induction F as [|a l H F IH]; [reflexivity|]. cbn. now rewrite H, IH. }
  induction f as [|f IH]; intros t v W; [destruct W|].
  destruct t; try (cbn [wtn] in W; now apply (IH _ _ W)); destruct v; cbn [wtn] in W; try (now destruct W);
    cbn [costs buffered postcard k_byte k_uint k_char app]; try reflexivity; try (cbn [sum fold_right]; lia).
  - now apply (IH _ _ W).
  - rewrite sum_concat. apply M. destruct W as [_ W]. eapply Forall_impl; [|exact W]. intros a. apply IH.
  - rewrite sum_concat. apply M. eapply Forall2_right; [exact W|]. intros a b. apply IH.
  - rewrite (sum_concat (fun kv => costs _ (fst kv) ++ costs _ (snd kv))). apply M. destruct W as [_ W]. eapply Forall_impl; [|exact W].
    cbn beta. intros [a b] [A B]. cbn [fst snd] in *. rewrite sum_app. now rewrite (IH _ _ A), (IH _ _ B).
  - destruct W as (t & _ & _ & W). now apply (IH _ _ W).
Qed.

Lemma spends_loose z b l :
  (Forall (fun n => (n <= b)%N) l -> spends (postcard z false) b l = Some b) /\
  (~ Forall (fun n => (n <= b)%N) l -> spends (postcard z false) b l = None).
Proof.
  induction l as [|a l [I1 I2]]; cbn [spends c_spend postcard]; [split; [reflexivity|intros H; exfalso; apply H; constructor]|].
  unfold spend. destruct (a <=? b)%N eqn:E.
  - split.
    + intros H. inversion H. auto.
    + intros H. apply I2. intros F. apply H. constructor; [lia|exact F].
  - split; [|reflexivity]. intros H. inversion H. lia.
Qed.

Lemma spends_sum c b l : c_spend c = spend true -> spends c b l = if (sum l <=? b)%N then Some (b - sum l)%N else None.
Proof.
  intros E. revert b. induction l as [|a l IH]; intros b; cbn [spends sum fold_right].
  - destruct (0 <=? b)%N eqn:L; [f_equal; lia|lia].
  - rewrite E. unfold spend. fold (sum l). destruct (a <=? b)%N eqn:L1.
    + rewrite IH. destruct (sum l <=? b - a)%N eqn:L2, (a + sum l <=? b)%N eqn:L3; try lia; [f_equal; lia|reflexivity].
    + destruct (a + sum l <=? b)%N eqn:L3; [lia|reflexivity].
Qed.

(** ** C14 *)

(** What was recorded is decoded to itself, whatever follows it, if no string is longer
    than the buffer. *)
Theorem C14_round_trip :
  forall (eof_zero : bool) (env : nat -> ty) (t : ty) (v : val) (rest : bytes),
    wt env t v -> Forall short (strings v) ->
    exists f, forall g, f <= g -> deserialize eof_zero false env g t (serialize eof_zero false v ++ rest) = Value v.
Proof.
  intros z env t v rest W S0. apply wt_wtn in W as [f W]. exists f. intros g G. apply (wtn_le env f g) in W; [|exact G].
  unfold deserialize, serialize. rewrite (reads_value _ _ (postcard_laws z false) g t v W).
  apply (proj2 (short_costs z env g t v W)) in S0. apply spends_loose with (z := z) in S0.
  change SLIDING_BUFFER_SIZE with 2048%N. now rewrite S0.
Qed.
Print Assumptions C14_round_trip.

(** If the buffer is not reused, the same holds as long as everything put into it fits together. *)
Theorem C14_round_trip_sticky :
  forall (eof_zero : bool) (env : nat -> ty) (t : ty) (v : val) (rest : bytes),
    wt env t v -> (buffered v <= 2048)%N ->
    exists f, forall g, f <= g -> deserialize eof_zero true env g t (serialize eof_zero true v ++ rest) = Value v.
Proof.
  intros z env t v rest W S0. apply wt_wtn in W as [f W]. exists f. intros g G. apply (wtn_le env f g) in W; [|exact G].
  unfold deserialize, serialize. rewrite (reads_value _ _ (postcard_laws z true) g t v W).
  rewrite spends_sum by reflexivity. rewrite (sum_costs z true env g t v W).
  change SLIDING_BUFFER_SIZE with 2048%N. destruct (buffered v <=? 2048)%N eqn:E; [reflexivity|lia].
Qed.
Print Assumptions C14_round_trip_sticky.

(** The list of numbers type [enum List { Nil, Cons(u8, Box<List>) }], and a call with a
    string, a list of pairs and an optional number. *)
Definition ex_env (n : nat) : ty := TEnum [TUnit; TTuple [TU8; TNamed 0]].
Definition ex_ty : ty := TTuple [TString; TSeq (TTuple [TUInt W32; TChar]); TOption (TSInt W64); TNamed 0].
Definition ex_val : val :=
  VTuple [VString (lit "hi"); VSeq [VTuple [VUInt W32 300; VChar (lit "x")]; VTuple [VUInt W32 5; VChar (map ascii_of_nat [195; 169])]];
          VSome (VSInt W64 (-2)); VEnum 1 (VTuple [VU8 "a"%char; VEnum 0 VUnit])].

Example C14_example :
  serialize true false ex_val
  = map ascii_of_nat [2; 104; 105; 2; 172; 2; 1; 120; 5; 2; 195; 169; 1; 3; 1; 97; 0] /\
  deserialize true false ex_env 8 ex_ty (serialize true false ex_val ++ lit "tail") = Value ex_val /\
  deserialize false true ex_env 8 ex_ty (serialize true false ex_val) = Value ex_val.
Proof. vm_compute. auto. Qed.

(** ** C15 *)

(** Encodings of different values differ and neither is a prefix of the other. *)
Lemma enc_unique c : laws c -> (forall b l, (sum l <= b)%N -> exists b', spends c b l = Some b') ->
  forall env t v1 v2 r1 r2, wt env t v1 -> wt env t v2 -> enc c v1 ++ r1 = enc c v2 ++ r2 -> v1 = v2 /\ r1 = r2.
Proof.
  intros L S0 env t v1 v2 r1 r2 W1 W2 E. apply wt_wtn in W1 as [f1 W1]. apply wt_wtn in W2 as [f2 W2].
  set (f := Nat.max f1 f2). apply (wtn_le env f1 f) in W1; [|unfold f; lia]. apply (wtn_le env f2 f) in W2; [|unfold f; lia].
  pose proof (reads_value c env L f t v1 W1 r1 (sum (costs c v1) + sum (costs c v2))%N) as R1.
  pose proof (reads_value c env L f t v2 W2 r2 (sum (costs c v1) + sum (costs c v2))%N) as R2.
  rewrite E, R2 in R1.
  destruct (S0 (sum (costs c v1) + sum (costs c v2))%N (costs c v1) ltac:(lia)) as [b1 B1].
  destruct (S0 (sum (costs c v1) + sum (costs c v2))%N (costs c v2) ltac:(lia)) as [b2 B2].
  rewrite B1, B2 in R1. injection R1 as E1 E2 _. auto.
Qed.

Lemma postcard_affordable z k b l : (sum l <= b)%N -> exists b', spends (postcard z k) b l = Some b'.
Proof.
  intros H. destruct k.
  - rewrite spends_sum by reflexivity. destruct (sum l <=? b)%N eqn:E; [eauto|lia].
  - exists b. apply spends_loose. revert H. induction l as [|a l IH]; intros H; constructor; cbn [sum fold_right] in H; [lia|].
    apply IH. unfold sum. lia.
Qed.

(** C15: different values have different encodings, and none is an initial part of another. *)
Theorem C15_injective :
  forall (z k : bool) (env : nat -> ty) (t : ty) (v1 v2 : val) (r1 r2 : bytes),
    wt env t v1 -> wt env t v2 -> serialize z k v1 ++ r1 = serialize z k v2 ++ r2 -> v1 = v2 /\ r1 = r2.
Proof. intros z k. exact (enc_unique _ (postcard_laws z k) (postcard_affordable z k)). Qed.
Print Assumptions C15_injective.

(** Two calls write the same corpus file only if their arguments are equal or SHA-1 collides. *)
Theorem C15_same_file :
  forall (z k : bool) (env : nat -> ty) (t : ty) (v1 v2 : val),
    wt env t v1 -> wt env t v2 ->
    corpus_name (serialize z k v1) = corpus_name (serialize z k v2) ->
    v1 = v2 \/ (serialize z k v1 <> serialize z k v2 /\ sha1 (serialize z k v1) = sha1 (serialize z k v2)).
Proof.
  intros z k env t v1 v2 W1 W2 E. apply corpus_name_inj in E.
  destruct (list_eq_dec ascii_dec (serialize z k v1) (serialize z k v2)) as [D|D]; [left|right; auto].
  apply (C15_injective z k env t v1 v2 [] [] W1 W2). now rewrite D.
Qed.
Print Assumptions C15_same_file.

Example C15_example :
  serialize true false (VTuple [VString (lit "a"); VString (lit "bc")]) <> serialize true false (VTuple [VString (lit "ab"); VString (lit "c")]).
Proof. vm_compute. discriminate. Qed.

(** ** C16 *)

(** Whatever the input, a decoded value has the argument type. *)
Theorem C16_well_typed :
  forall (z k : bool) (env : nat -> ty) (f : nat) (t : ty) (s : bytes) (v : val),
    deserialize z k env f t s = Value v -> wt env t v.
Proof.
  intros z k env f t s v E. unfold deserialize in E. destruct (dec _ env f t _) as [v' s'| |] eqn:D; try discriminate.
  injection E as <-. exact (dec_wt _ env (postcard_sane z k) f t _ _ _ D).
Qed.
Print Assumptions C16_well_typed.

(** For types that do not mention recursive ones, decoding ends in a value or a failure
    on a stack of fixed depth, for every input. *)
Theorem C16_total :
  forall (z k : bool) (env : nat -> ty) (t : ty),
    plain t = true ->
    forall s f, height t <= f -> deserialize z k env f t s = NoValue \/ exists v, deserialize z k env f t s = Value v.
Proof.
  intros z k env t P s f H. unfold deserialize.
  pose proof (plain_total _ env (postcard_sane z k) f t (s, SLIDING_BUFFER_SIZE) P H) as N.
  destruct (dec _ env f t _) as [v s'| |]; [right; now exists v|now left|contradiction].
Qed.
Print Assumptions C16_total.

(** Recursive types whose definitions read something before they recurse: the depth
    needed grows at most linearly with the input, if reading past the end is an error. *)
Theorem C16_total_recursive :
  forall (k : bool) (env : nat -> ty) (h : nat),
    (forall n, guarded (env n) = true /\ height (env n) <= h) ->
    forall t s f, height t + S (List.length s) * S h <= f ->
      deserialize false k env f t s = NoValue \/ exists v, deserialize false k env f t s = Value v.
Proof.
  intros k env h D t s f H. unfold deserialize.
  assert (N : dec (postcard false k) env f t (s, SLIDING_BUFFER_SIZE) <> Over).
  { apply (bounded _ env (postcard_sane false k) h D (postcard_strict false k eq_refl)).
    pose proof (need_any env h D t (List.length s)). lia. }
  destruct (dec _ env f t _) as [v s'| |]; [right; now exists v|now left|contradiction].
Qed.
Print Assumptions C16_total_recursive.

(** The result depends on a prefix of the input only, if reading past the end is an error. *)
Theorem C16_extension :
  forall (k : bool) (env : nat -> ty) (f : nat) (t : ty) (s more : bytes) (v : val),
    deserialize false k env f t s = Value v -> deserialize false k env f t (s ++ more) = Value v.
Proof.
  intros k env f t s more v E. unfold deserialize in *. destruct (dec _ env f t (s, _)) as [v' [s' b']| |] eqn:D; try discriminate.
  now rewrite (dec_extends _ env (postcard_strict false k eq_refl) f t _ _ _ _ _ more D).
Qed.
Print Assumptions C16_extension.

(** A deeper stack never changes a result. *)
Theorem C16_deeper_stack :
  forall (z k : bool) (env : nat -> ty) (f g : nat) (t : ty) (s : bytes),
    f <= g -> deserialize z k env f t s <> StackOverflow -> deserialize z k env g t s = deserialize z k env f t s.
Proof.
  intros z k env f g t s G H. unfold deserialize in *.
  rewrite (dec_le _ env f g); [reflexivity|exact G|]. intros E. rewrite E in H. contradiction.
Qed.
Print Assumptions C16_deeper_stack.

(** If the end of the input reads as zeros, a truncated input can decode, and what
    follows it then matters. *)
Theorem C16_extension_refuted :
  exists (env : nat -> ty) (f : nat) (t : ty) (s more : bytes) (v w : val),
    deserialize true false env f t s = Value v /\ deserialize true false env f t (s ++ more) = Value w /\ v <> w.
Proof.
  exists (fun _ => TUnit), 2, TU8, [], [ascii_of_nat 7], (VU8 (ascii_of_nat 0)), (VU8 (ascii_of_nat 7)).
  split; [reflexivity|]. split; [reflexivity|discriminate].
Qed.
Print Assumptions C16_extension_refuted.

(** If the end of the input reads as zeros, an empty input overflows any stack for a
    recursive type whose first variant recurses. *)
Theorem C16_recursion_refuted :
  exists (env : nat -> ty),
    (forall n, guarded (env n) = true) /\
    forall (k : bool) (f : nat), deserialize true k env f (TNamed 0) [] = StackOverflow.
Proof.
  exists (fun _ => TEnum [TTuple [TU8; TNamed 0]; TUnit]). split; [reflexivity|]. intros k f. unfold deserialize.
  set (E := fun _ : nat => TEnum [TTuple [TU8; TNamed 0]; TUnit]).
  assert (EE : forall n, E n = TEnum [TTuple [TU8; TNamed 0]; TUnit]) by reflexivity. clearbody E.
  assert (H : forall f b, dec (postcard true k) E f (TNamed 0) ([], b) = Over).
  { clear f. intros f. induction f as [f IH] using lt_wf_ind. intros b. destruct f as [|[|[|f]]]; try reflexivity.
    - cbn [dec]. rewrite EE. reflexivity.
    - cbn [dec]. rewrite EE. cbn [dec]. unfold rbind at 1. cbn [d_uint postcard]. cbn -[dec]. cbn [dec map rlist]. unfold rbind, rret.
      destruct f as [|f]; [reflexivity|]. cbn [dec]. unfold rbind, rret. cbn -[dec]. specialize (IH (S f) ltac:(lia) b). cbn [dec] in IH.
      rewrite IH. reflexivity. }
  now rewrite H.
Qed.
Print Assumptions C16_recursion_refuted.

Lemma leb_length f n : List.length (leb f n) <= f.
Proof.
  revert n. induction f as [|f IH]; intros n; [reflexivity|]. cbn [leb]. destruct (n <? 128)%N; cbn [List.length]; [lia|].
  specialize (IH (n / 128)%N). lia.
Qed.

(** And a few bytes can make a byte vector of any length. *)
Theorem C16_huge_value_refuted :
  forall (k : bool) (env : nat -> ty) (n : nat), (N.of_nat n < 2 ^ 64)%N ->
    exists s, List.length s <= 19 /\
      deserialize true k env 3 (TSeq TU8) s = Value (VSeq (repeat (VU8 (ascii_of_N 0)) n)).
Proof.
  intros k env n H. exists (leb 19 (N.of_nat n)). split; [apply leb_length|]. unfold deserialize.
  cbn [dec]. unfold rbind at 1. pose proof (reads_uvarint true k W64 (N.of_nat n) H [] SLIDING_BUFFER_SIZE) as R.
  rewrite app_nil_r in R. change (d_uint (postcard true k) W64) with (uvarint true W64). rewrite R. cbn [spends].
  rewrite Nnat.Nat2N.id.
  assert (Q : forall n b, rrepeat (rbind (d_byte (postcard true k)) (fun a => rret (VU8 a))) n ([], b) = Ok (repeat (VU8 (ascii_of_N 0)) n) ([], b)).
  { clear. induction n as [|n IH]; intros b; [reflexivity|]. cbn [rrepeat repeat]. unfold rbind at 1. cbn -[rrepeat repeat ascii_of_N].
    unfold rbind at 1. unfold rret at 1. unfold rbind. rewrite IH. reflexivity. }
  unfold rbind at 1. rewrite Q. reflexivity.
Qed.
Print Assumptions C16_huge_value_refuted.

Example C16_example :
  deserialize false false ex_env 8 ex_ty (lit "garbage") = NoValue /\
  deserialize false false ex_env 30 ex_ty (map ascii_of_nat [1; 65; 0; 0; 1; 9; 1; 8; 0; 255]) =
    Value (VTuple [VString (lit "A"); VSeq []; VNone; VEnum 1 (VTuple [VU8 (ascii_of_nat 9); VEnum 1 (VTuple [VU8 (ascii_of_nat 8); VEnum 0 VUnit])])]) /\
  deserialize true false (fun _ => TUnit) 3 (TSeq TU8) [ascii_of_nat 3] = Value (VSeq (repeat (VU8 (ascii_of_N 0)) 3)).
Proof. vm_compute. auto. Qed.

(** ** C17 *)

(** With a string longer than the buffer the recorded bytes never decode. *)
Theorem C17_long_string_lost :
  forall (z k : bool) (env : nat -> ty) (t : ty) (v : val) (rest : bytes),
    wt env t v -> Exists (fun s => (2048 < N.of_nat (List.length s))%N) (strings v) ->
    exists f, forall g, f <= g -> deserialize z k env g t (serialize z k v ++ rest) = NoValue.
Proof.
  intros z k env t v rest W S0. apply wt_wtn in W as [f W]. exists f. intros g G. apply (wtn_le env f g) in W; [|exact G].
  unfold deserialize, serialize. rewrite (reads_value _ _ (postcard_laws z k) g t v W).
  assert (N : ~ Forall (fun n => (n <= 2048)%N) (costs (postcard z false) v)).
  { rewrite (short_costs z env g t v W). intros F. apply Exists_exists in S0 as (s & I & L). rewrite Forall_forall in F.
    specialize (F s I). unfold short in F. lia. }
  change SLIDING_BUFFER_SIZE with 2048%N. destruct k.
  - rewrite spends_sum by reflexivity.
    assert (SUM : (2048 < sum (costs (postcard z true) v))%N).
    { change (costs (postcard z true) v) with (costs (postcard z false) v). revert N. generalize (costs (postcard z false) v). clear.
      induction l as [|a l IH]; intros N; [exfalso; apply N; constructor|]. cbn [sum fold_right]. fold (sum l).
      destruct (a <=? 2048)%N eqn:E; [|lia]. assert (2048 < sum l)%N; [|lia]. apply IH. intros F. apply N. constructor; [lia|exact F]. }
    destruct (_ <=? 2048)%N eqn:E; [lia|reflexivity].
  - apply spends_loose with (z := z) in N. now rewrite N.
Qed.
Print Assumptions C17_long_string_lost.

(** So a corpus entry is usable exactly if none of its strings is longer than 2048 bytes. *)
Theorem C17_boundary_exact :
  forall (z : bool) (env : nat -> ty) (t : ty) (v : val),
    wt env t v ->
    (Forall short (strings v) <->
     exists f, forall g, f <= g -> deserialize z false env g t (serialize z false v) = Value v).
Proof.
  intros z env t v W. split.
  - intros S0. destruct (C14_round_trip z env t v [] W S0) as [f H]. exists f. intros g G. rewrite <- (H g G). now rewrite app_nil_r.
  - intros [f H]. destruct (Forall_Exists_dec short (fun s => match N.leb_spec0 (N.of_nat (List.length s)) 2048 with ReflectT _ p => left p | ReflectF _ p => right p end) (strings v)) as [F|E]; [exact F|exfalso].
    assert (E2 : Exists (fun s => (2048 < N.of_nat (List.length s))%N) (strings v)).
    { eapply Exists_impl; [|exact E]. unfold short. intros s. cbn beta. lia. }
    destruct (C17_long_string_lost z false env t v [] W E2) as [f' H']. specialize (H (Nat.max f f') ltac:(lia)). specialize (H' (Nat.max f f') ltac:(lia)).
    rewrite app_nil_r in H'. congruence.
Qed.
Print Assumptions C17_boundary_exact.

Example C17_example :
  let long n := VString (repeat "a"%char n) in
  deserialize true false (fun _ => TUnit) 3 TString (serialize true false (long 2048)) = Value (long 2048) /\
  deserialize true false (fun _ => TUnit) 3 TString (serialize true false (long 2049)) = NoValue.
Proof. vm_compute. auto. Qed.

(** ** C18 *)

(** What bincode claims for a value: the full width of every integer (also of lengths and
    variant numbers), one per flag, and the bytes of strings, floats and characters. *)
Fixpoint claimed (v : val) : N :=
  match v with
  | VBool _ | VU8 _ | VI8 _ | VNone => 1
  | VUInt w _ | VSInt w _ => match w with W16 => 2 | W32 => 4 | W64 => 8 | W128 => 16 end
  | VF32 _ => 4
  | VF64 _ => 8
  | VChar u => N.of_nat (List.length u)
  | VString s | VBytes s => 8 + N.of_nat (List.length s)
  | VUnit => 0
  | VSome v => 1 + claimed v
  | VSeq vs => 8 + fold_right N.add 0 (map claimed vs)
  | VTuple vs => fold_right N.add 0 (map claimed vs)
  | VMap kvs => 8 + fold_right N.add 0 (map (fun kv => claimed (fst kv) + claimed (snd kv)) kvs)
  | VEnum _ v => 4 + claimed v
  end%N.

Lemma sum_claimed env : forall f t v, wtn env f t v -> sum (costs Bincode.bincode v) = claimed v.
Proof.
  assert (M : forall A (g h : A -> N) l, Forall (fun a => g a = h a) l -> fold_right N.add 0%N (map g l) = fold_right N.add 0%N (map h l)).
  { intros A g h l F. induction F as [|a l H F IH]; [reflexivity|]. cbn. now rewrite H, IH. }
  induction f as [|f IH]; intros t v W; [destruct W|].
  destruct t; try (cbn [wtn] in W; now apply (IH _ _ W)); destruct v; cbn [wtn] in W; try (now destruct W);
    cbn [costs claimed Bincode.bincode k_byte k_uint k_char]; try reflexivity.
  - destruct W as [<- _]. destruct w; reflexivity.
  - destruct W as [<- _]. destruct w; reflexivity.
  - rewrite W. reflexivity.
  - rewrite W. reflexivity.
  - cbn [sum fold_right]. lia.
  - rewrite sum_app. cbn [sum fold_right]. change (Bincode.size_of W64) with 8%N. lia.
  - rewrite sum_app. cbn [sum fold_right]. change (Bincode.size_of W64) with 8%N. lia.
  - rewrite sum_app, (IH _ _ W). reflexivity.
  - rewrite sum_app, sum_concat. change (sum [Bincode.size_of W64]) with 8%N. f_equal. apply M. destruct W as [_ W]. eapply Forall_impl; [|exact W]. intros a. apply IH.
  - rewrite sum_concat. apply M. eapply Forall2_right; [exact W|]. intros a b. apply IH.
  - rewrite sum_app, (sum_concat (fun kv => costs _ (fst kv) ++ costs _ (snd kv))). change (sum [Bincode.size_of W64]) with 8%N. f_equal.
    apply M. destruct W as [_ W]. eapply Forall_impl; [|exact W].
    cbn beta. intros [a b] [A B]. cbn [fst snd] in *. rewrite sum_app. now rewrite (IH _ _ A), (IH _ _ B).
  - destruct W as (t & _ & _ & W). rewrite sum_app, (IH _ _ W). reflexivity.
Qed.

(** The recorded bytes decode to the value exactly if what is claimed for it is within one gibibyte. *)
Theorem C18_round_trip :
  forall (env : nat -> ty) (t : ty) (v : val) (rest : bytes),
    wt env t v ->
    exists f, forall g, f <= g ->
      Bincode.deserialize env g t (Bincode.serialize v ++ rest) = if (claimed v <=? 2 ^ 30)%N then Value v else NoValue.
Proof.
  intros env t v rest W. apply wt_wtn in W as [f W]. exists f. intros g G. apply (wtn_le env f g) in W; [|exact G].
  unfold Bincode.deserialize, Bincode.serialize. rewrite (reads_value _ _ Bincode.bincode_laws g t v W).
  rewrite spends_sum by reflexivity. rewrite (sum_claimed env g t v W).
  change Bincode.BYTE_LIMIT with (2 ^ 30)%N. destruct (claimed v <=? 2 ^ 30)%N; reflexivity.
Qed.
Print Assumptions C18_round_trip.

(** C18: the same for bincode. *)
Theorem C18_injective :
  forall (env : nat -> ty) (t : ty) (v1 v2 : val) (r1 r2 : bytes),
    wt env t v1 -> wt env t v2 -> Bincode.serialize v1 ++ r1 = Bincode.serialize v2 ++ r2 -> v1 = v2 /\ r1 = r2.
Proof.
  apply (enc_unique _ Bincode.bincode_laws). intros b l H. rewrite spends_sum by reflexivity.
  destruct (sum l <=? b)%N eqn:E; [eauto|lia].
Qed.
Print Assumptions C18_injective.

(** Arbitrary input. *)
Theorem C18_decoding_total :
  forall (env : nat -> ty) (h : nat),
    (forall n, guarded (env n) = true /\ height (env n) <= h) ->
    forall t s f, height t + S (List.length s) * S h <= f ->
      Bincode.deserialize env f t s = NoValue \/
      exists v, wt env t v /\ forall more, Bincode.deserialize env f t (s ++ more) = Value v.
Proof.
  intros env h D t s f H. unfold Bincode.deserialize.
  assert (N : dec Bincode.bincode env f t (s, Bincode.BYTE_LIMIT) <> Over).
  { apply (bounded _ env Bincode.bincode_sane h D Bincode.bincode_strict).
    pose proof (need_any env h D t (List.length s)). lia. }
  destruct (dec _ env f t (s, _)) as [v [s' b']| |] eqn:E; [right|now left|contradiction].
  exists v. split; [exact (dec_wt _ env Bincode.bincode_sane f t _ _ _ E)|]. intros more.
  now rewrite (dec_extends _ env Bincode.bincode_strict f t _ _ _ _ _ more E).
Qed.
Print Assumptions C18_decoding_total.

(** An encoding far below the limit can be undecodable: 2^27 eight-byte integers, each
    encoded in one byte. *)
Theorem C18_encoding_within_limit_refuted :
  exists (t : ty) (v : val),
    wt (fun _ => TUnit) t v /\ (N.of_nat (List.length (Bincode.serialize v)) < 2 ^ 28)%N /\
    exists f, forall g, f <= g -> Bincode.deserialize (fun _ => TUnit) g t (Bincode.serialize v) = NoValue.
Proof.
  set (n := N.to_nat (2 ^ 27)). assert (Hn : N.of_nat n = (2 ^ 27)%N) by apply Nnat.N2Nat.id. clearbody n.
  set (vs := repeat (VUInt W64 0) n). exists (TSeq (TUInt W64)), (VSeq vs).
  assert (W : wt (fun _ => TUnit) (TSeq (TUInt W64)) (VSeq vs)).
  { constructor.
    - unfold fits_len, vs. rewrite repeat_length, Hn. reflexivity.
    - apply Forall_forall. intros v I. apply repeat_spec in I. subst v. constructor. reflexivity. }
  split; [exact W|]. split.
  - unfold Bincode.serialize. cbn [enc]. rewrite app_length.
    assert (L : List.length (List.concat (map (enc Bincode.bincode) vs)) = n).
    { unfold vs. clear. induction n as [|n IH]; [reflexivity|]. cbn [repeat map List.concat]. rewrite app_length, IH. reflexivity. }
    rewrite L. unfold e_len, vs. rewrite repeat_length, Hn. change (List.length (c_uint Bincode.bincode (2 ^ 27))) with 5. lia.
  - destruct (C18_round_trip _ _ _ [] W) as [f F]. exists f. intros g G. specialize (F g G). rewrite app_nil_r in F. rewrite F.
    assert (K : claimed (VSeq vs) = (8 + 8 * N.of_nat n)%N).
    { cbn [claimed]. f_equal. unfold vs. clear. induction n as [|n IH]; [reflexivity|]. cbn [repeat map fold_right]. rewrite IH. cbn [claimed]. lia. }
    rewrite K, Hn. reflexivity.
Qed.
Print Assumptions C18_encoding_within_limit_refuted.

Example C18_example :
  Bincode.serialize ex_val
  = map ascii_of_nat [2; 104; 105; 2; 251; 44; 1; 120; 5; 195; 169; 1; 3; 1; 97; 0] /\
  Bincode.deserialize ex_env 8 ex_ty (Bincode.serialize ex_val ++ lit "tail") = Value ex_val /\
  claimed ex_val = 47%N.
Proof. vm_compute. auto. Qed.
