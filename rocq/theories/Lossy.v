(** [String::from_utf8_lossy]. *)
From Coq Require Import List Ascii String Bool Arith Lia NArith ZifyBool ZifyN ZifyNat.
From Verif Require Import Base Utf8.
Import ListNotations.

(** U+FFFD in UTF-8. *)
Definition fffd : bytes := [ascii_of_N 239; ascii_of_N 191; ascii_of_N 189].

(** Second byte of a three-byte sequence. *)
Definition second3 (c0 c1 : ascii) : bool :=
  if (byte c0 =? 224)%N then in_range 160 191 c1
  else if (byte c0 =? 237)%N then in_range 128 159 c1
  else is_cont c1.

(** Second byte of a four-byte sequence. *)
Definition second4 (c0 c1 : ascii) : bool :=
  if (byte c0 =? 240)%N then in_range 144 191 c1
  else if (byte c0 =? 244)%N then in_range 128 143 c1
  else is_cont c1.

(** [String::from_utf8_lossy] (std, [Utf8Chunks]): every maximal prefix of a
    well-formed sequence that does not continue is replaced by U+FFFD. *)
Fixpoint lossy (s : bytes) : bytes :=
  match s with
  | [] => []
  | c0 :: r0 =>
      if (byte c0 <? 128)%N then c0 :: lossy r0
      else if in_range 194 223 c0 then
        match r0 with
        | c1 :: r1 => if is_cont c1 then c0 :: c1 :: lossy r1 else fffd ++ lossy r0
        | [] => fffd
        end
      else if in_range 224 239 c0 then
        match r0 with
        | c1 :: r1 =>
            if second3 c0 c1 then
              match r1 with
              | c2 :: r2 => if is_cont c2 then c0 :: c1 :: c2 :: lossy r2 else fffd ++ lossy r1
              | [] => fffd
              end
            else fffd ++ lossy r0
        | [] => fffd
        end
      else if in_range 240 244 c0 then
        match r0 with
        | c1 :: r1 =>
            if second4 c0 c1 then
              match r1 with
              | c2 :: r2 =>
                  if is_cont c2 then
                    match r2 with
                    | c3 :: r3 => if is_cont c3 then c0 :: c1 :: c2 :: c3 :: lossy r3 else fffd ++ lossy r2
                    | [] => fffd
                    end
                  else fffd ++ lossy r1
              | [] => fffd
              end
            else fffd ++ lossy r0
        | [] => fffd
        end
      else fffd ++ lossy r0
  end.

(** * Lemmas *)

Definition ends_lf (s : bytes) : Prop := exists t, s = t ++ [LF].

Lemma ends_lf_cons c s : ends_lf (c :: s) <-> (s = [] /\ c = LF) \/ ends_lf s.
Proof.
  split.
  - intros [[|a t] E].
    + injection E as -> ->. auto.
    + injection E as -> ->. right. exists t. reflexivity.
  - intros [[-> ->]|[t ->]]; [exists []; reflexivity|exists (c :: t); reflexivity].
Qed.

Lemma ends_lf_nil : ~ ends_lf [].
Proof. intros [[|a t] E]; discriminate. Qed.

Lemma lf_byte : byte LF = 10%N.
Proof. reflexivity. Qed.

Lemma ends_lf_fffd s : ends_lf (fffd ++ s) <-> ends_lf s.
Proof.
  unfold fffd. cbn [app]. rewrite !ends_lf_cons. split; [|auto].
  intros [[H _]|[[H _]|[[_ H]|H]]]; try discriminate; try exact H.
Qed.

Lemma ends_lf_high c s : (128 <= byte c)%N -> (ends_lf (c :: s) <-> ends_lf s).
Proof.
  intros H. rewrite ends_lf_cons. split; [|auto]. intros [[_ ->]|E]; [|exact E].
  rewrite lf_byte in H. lia.
Qed.

Lemma is_cont_high c : is_cont c = true -> (128 <= byte c)%N.
Proof. unfold is_cont, in_range. lia. Qed.
Lemma second3_high c0 c : second3 c0 c = true -> (128 <= byte c)%N.
Proof. unfold second3, is_cont, in_range. destruct (byte c0 =? 224)%N, (byte c0 =? 237)%N; lia. Qed.
Lemma second4_high c0 c : second4 c0 c = true -> (128 <= byte c)%N.
Proof. unfold second4, is_cont, in_range. destruct (byte c0 =? 240)%N, (byte c0 =? 244)%N; lia. Qed.

Lemma strong_list_ind (P : bytes -> Prop) :
  (forall s, (forall t, List.length t < List.length s -> P t) -> P s) -> forall s, P s.
Proof.
  intros H s. assert (K : forall n s, List.length s < n -> P s).
  { induction n as [|n IH]; intros t L; [lia|]. apply H. intros u Lu. apply IH. lia. }
  apply (K (Datatypes.S (List.length s))). lia.
Qed.

Ltac lossy_cases IH :=
  repeat first
    [ match goal with |- context [if ?b then _ else _] => let E := fresh "E" in destruct b eqn:E end
    | match goal with |- context [match ?r with [] => _ | _ :: _ => _ end] =>
        is_var r; destruct r as [|? ?]
      end ].

Lemma lossy_ends_lf s : ends_lf (lossy s) <-> ends_lf s.
Proof.
  induction s as [s IH] using strong_list_ind. destruct s as [|c0 r0]; [reflexivity|].
  assert (F : ~ ends_lf fffd).
  { rewrite <- (app_nil_r fffd), ends_lf_fffd. apply ends_lf_nil. }
  assert (N : forall c s, (128 <= byte c)%N -> ~ ends_lf s -> ~ ends_lf (c :: s)).
  { intros c s Hc Hs. now rewrite ends_lf_high. }
  assert (L : forall s, lossy s = [] -> s = []).
  { clear. intros [|c0 r0]; [reflexivity|]. cbn [lossy]. intros H. exfalso. revert H.
    lossy_cases I; discriminate. }
  cbn [lossy]. destruct (byte c0 <? 128)%N eqn:E0.
  { rewrite !ends_lf_cons, IH by (cbn; lia). split; intros [[A B]|A]; auto. left. subst. auto. }
  assert (H0 : (128 <= byte c0)%N) by lia. rewrite (ends_lf_high c0 r0 H0).
  lossy_cases I;
    repeat match goal with
    | E : is_cont _ = true |- _ => apply is_cont_high in E
    | E : second3 _ _ = true |- _ => apply second3_high in E
    | E : second4 _ _ = true |- _ => apply second4_high in E
    end;
    repeat rewrite ends_lf_high by assumption;
    rewrite ?ends_lf_fffd, ?IH by (cbn [List.length]; lia);
    repeat rewrite ends_lf_high by assumption;
    try reflexivity; split; intros A; exfalso; try (now apply F); try (now apply ends_lf_nil).
Qed.

Lemma lossy_nil s : lossy s = [] <-> s = [].
Proof.
  split; [|now intros ->]. destruct s as [|c0 r0]; [reflexivity|]. cbn [lossy].
  lossy_cases I; discriminate.
Qed.

(** Valid text is unchanged. *)
Lemma lossy_valid s : valid_utf8 s = true -> lossy s = s.
Proof.
  induction s as [s IH] using strong_list_ind. destruct s as [|c0 r0]; [reflexivity|].
  cbn [valid_utf8 lossy]. destruct (byte c0 <? 128)%N eqn:E0.
  { intros H. f_equal. apply IH; [cbn; lia|exact H]. }
  destruct r0 as [|c1 r1]; [discriminate|].
  destruct (in_range 194 223 c0) eqn:R2.
  { rewrite andb_true_iff. intros [-> H]. do 2 f_equal. apply IH; [cbn; lia|exact H]. }
  destruct r1 as [|c2 r2]; [discriminate|].
  destruct (in_range 224 239 c0) eqn:R3.
  { unfold second3. rewrite !andb_true_iff. intros [[-> ->] H]. do 3 f_equal. apply IH; [cbn; lia|exact H]. }
  destruct r2 as [|c3 r3]; [discriminate|].
  unfold second4. rewrite !andb_true_iff. intros [[[[-> ->] ->] ->] H].
  do 4 f_equal. apply IH; [cbn; lia|exact H].
Qed.

(** The result is always valid. *)
Lemma fffd_valid s : valid_utf8 (fffd ++ s) = valid_utf8 s.
Proof. reflexivity. Qed.

Lemma lossy_is_valid s : valid_utf8 (lossy s) = true.
Proof.
  induction s as [s IH] using strong_list_ind. destruct s as [|c0 r0]; [reflexivity|].
  cbn [lossy]. destruct (byte c0 <? 128)%N eqn:E0.
  { cbn [valid_utf8]. rewrite E0. apply IH. cbn; lia. }
  destruct (in_range 194 223 c0) eqn:R2.
  { destruct r0 as [|c1 r1]; [reflexivity|]. destruct (is_cont c1) eqn:C1.
    - cbn [valid_utf8]. rewrite E0, R2, C1. apply IH. cbn; lia.
    - rewrite fffd_valid. apply IH. cbn; lia. }
  destruct (in_range 224 239 c0) eqn:R3.
  { destruct r0 as [|c1 r1]; [reflexivity|]. destruct (second3 c0 c1) eqn:S.
    - destruct r1 as [|c2 r2]; [reflexivity|]. destruct (is_cont c2) eqn:C2.
      + cbn [valid_utf8]. rewrite E0, R2, R3, C2. unfold second3 in S. rewrite S. apply IH. cbn; lia.
      + rewrite fffd_valid. apply IH. cbn; lia.
    - rewrite fffd_valid. apply IH. cbn; lia. }
  destruct (in_range 240 244 c0) eqn:R4; [|rewrite fffd_valid; apply IH; cbn; lia].
  destruct r0 as [|c1 r1]; [reflexivity|].
  destruct (second4 c0 c1) eqn:S; [|rewrite fffd_valid; apply IH; cbn; lia].
  destruct r1 as [|c2 r2]; [reflexivity|].
  destruct (is_cont c2) eqn:C2; [|rewrite fffd_valid; apply IH; cbn; lia].
  destruct r2 as [|c3 r3]; [reflexivity|].
  destruct (is_cont c3) eqn:C3; [|rewrite fffd_valid; apply IH; cbn; lia].
  cbn [valid_utf8]. rewrite E0, R2, R3, R4, C2, C3. unfold second4 in S. rewrite S. apply IH. cbn; lia.
Qed.

(** Only text that is already that text is shown as ASCII text. *)
Lemma lossy_ascii s : is_ascii (lossy s) -> lossy s = s.
Proof.
  induction s as [s IH] using strong_list_ind. destruct s as [|c0 r0]; [reflexivity|].
  assert (F : forall s, ~ is_ascii (fffd ++ s)).
  { intros t H. inversion H as [|? ? A B]; subst. vm_compute in A. discriminate A. }
  assert (F' : ~ is_ascii fffd) by (rewrite <- (app_nil_r fffd); apply F).
  assert (G : forall s, (byte c0 <? 128)%N = false -> ~ is_ascii (c0 :: s)).
  { intros t E H. inversion H as [|? ? A B]; subst. lia. }
  cbn [lossy]. destruct (byte c0 <? 128)%N eqn:E0.
  { intros H. inversion H as [|? ? A B]; subst. f_equal. apply IH; [cbn; lia|exact B]. }
  lossy_cases I; intros H; exfalso; solve [now apply (F _ H)|now apply (F' H)|now apply (G _ eq_refl H)].
Qed.
