(** UTF-8 validity and character boundaries, as used by [String::from_utf8],
    [env::var] and [str] slicing (std). *)
From Coq Require Import List Ascii String Bool Arith Lia NArith ZifyBool ZifyN ZifyNat.
From Verif Require Import Base.
Import ListNotations.

(** Numeric value of a byte. *)
Definition byte (c : ascii) : N := N_of_ascii c.

(** [lo <= c <= hi] on bytes. *)
Definition in_range (lo hi : N) (c : ascii) : bool := (lo <=? byte c)%N && (byte c <=? hi)%N.

(** Continuation byte, 0x80..0xBF. *)
Definition is_cont (c : ascii) : bool := in_range 128 191 c.

(** [core::str::from_utf8(..).is_ok()]: well-formed UTF-8, Unicode table 3-7. *)
Fixpoint valid_utf8 (s : bytes) : bool :=
  match s with
  | [] => true
  | c0 :: r0 =>
      if (byte c0 <? 128)%N then valid_utf8 r0
      else match r0 with
           | [] => false
           | c1 :: r1 =>
               if in_range 194 223 c0 then is_cont c1 && valid_utf8 r1
               else match r1 with
                    | [] => false
                    | c2 :: r2 =>
                        if in_range 224 239 c0 then
                          (if (byte c0 =? 224)%N then in_range 160 191 c1
                           else if (byte c0 =? 237)%N then in_range 128 159 c1
                           else is_cont c1) && is_cont c2 && valid_utf8 r2
                        else match r2 with
                             | [] => false
                             | c3 :: r3 =>
                                 in_range 240 244 c0 &&
                                 (if (byte c0 =? 240)%N then in_range 144 191 c1
                                  else if (byte c0 =? 244)%N then in_range 128 143 c1
                                  else is_cont c1) && is_cont c2 && is_cont c3 && valid_utf8 r3
                             end
                    end
           end
  end.

(** [str::is_char_boundary(i)] (std): index 0, the length, or a byte that is not
    a continuation byte. *)
Definition is_char_boundary (s : bytes) (i : nat) : bool :=
  match i with
  | 0 => true
  | _ => match nth_error s i with
         | Some c => negb (is_cont c)
         | None => i =? List.length s
         end
  end.

(** [&s[..i]] (std): panics ([None]) unless [i] is a character boundary. *)
Definition slice_to (s : bytes) (i : nat) : option bytes :=
  if is_char_boundary s i then Some (firstn i s) else None.

(** All bytes below 0x80. *)
Definition is_ascii (s : bytes) : Prop := Forall (fun c => (byte c < 128)%N) s.

Lemma ascii_valid s : is_ascii s -> valid_utf8 s = true.
Proof.
  induction 1 as [|c s Hc Hs IH]; [reflexivity|]. cbn [valid_utf8].
  destruct (byte c <? 128)%N eqn:E; [exact IH|lia].
Qed.

Lemma ascii_boundary s i : is_ascii s -> i <= List.length s -> is_char_boundary s i = true.
Proof.
  intros H Hi. unfold is_char_boundary. destruct i as [|i]; [reflexivity|].
  destruct (nth_error s (S i)) as [c|] eqn:E.
  - apply nth_error_In in E. unfold is_ascii in H. rewrite Forall_forall in H.
    specialize (H c E). unfold is_cont, in_range; lia.
  - apply nth_error_None in E. lia.
Qed.

Lemma ascii_slice s i : is_ascii s -> i <= List.length s -> slice_to s i = Some (firstn i s).
Proof. intros H Hi. unfold slice_to. rewrite ascii_boundary; auto. Qed.

Lemma is_ascii_app a b : is_ascii (a ++ b) <-> is_ascii a /\ is_ascii b.
Proof. apply Forall_app. Qed.

(** Decidable version, for concrete strings. *)
Lemma is_ascii_dec s : forallb (fun c => (byte c <? 128)%N) s = true -> is_ascii s.
Proof.
  intros H. apply Forall_forall. intros c Hc. rewrite forallb_forall in H.
  specialize (H c Hc). lia.
Qed.

(** Induction principle following the shape of [valid_utf8]. *)
Lemma valid_utf8_ind (P : bytes -> Prop) :
  P [] ->
  (forall u s, u <> [] -> valid_utf8 s = true -> P s ->
     (forall c, In c (tl u) -> is_cont c = true) ->
     (forall c, hd_error u = Some c -> is_cont c = false) ->
     (forall t, valid_utf8 (u ++ t) = valid_utf8 t) ->
     P (u ++ s)) ->
  forall s, valid_utf8 s = true -> P s.
Proof.
  intros P0 PS s.
  assert (H : forall n s, List.length s <= n -> valid_utf8 s = true -> P s); [|eauto].
  clear s. induction n as [|n IH]; intros s Hn Hv.
  - destruct s; [exact P0|simpl in Hn; lia].
  - destruct s as [|c0 r0]; [exact P0|].
    simpl in Hn. cbn [valid_utf8] in Hv.
    destruct (byte c0 <? 128)%N eqn:E0.
    { apply (PS [c0] r0); [discriminate|exact Hv| | | |].
      - apply IH; [lia|auto].
      - intros c [].
      - intros c [= <-]. unfold is_cont, in_range; lia.
      - intros t. cbn [app valid_utf8]. now rewrite E0. }
    destruct r0 as [|c1 r1]; [discriminate|].
    destruct (in_range 194 223 c0) eqn:E1.
    { apply andb_true_iff in Hv as [Hc Hv].
      apply (PS [c0; c1] r1); [discriminate|exact Hv| | | |].
      - apply IH; [simpl in Hn; lia|auto].
      - intros c [<-|[]]; auto.
      - intros c [= <-]. revert E1. unfold is_cont, in_range; lia.
      - intros t. cbn [app valid_utf8]. now rewrite E0, E1, Hc. }
    destruct r1 as [|c2 r2]; [discriminate|].
    destruct (in_range 224 239 c0) eqn:E2.
    { apply andb_true_iff in Hv as [Hc Hv]. 
      assert (Hc' := Hc). apply andb_true_iff in Hc' as [Hc1 Hc2].
      apply (PS [c0; c1; c2] r2); [discriminate|exact Hv| | | |].
      - apply IH; [simpl in Hn; lia|auto].
      - intros c [<-|[<-|[]]]; auto.
        revert Hc1. unfold is_cont, in_range.
        destruct (byte c0 =? 224)%N, (byte c0 =? 237)%N; lia.
      - intros c [= <-]. revert E2. unfold is_cont, in_range; lia.
      - intros t. cbn [app valid_utf8]. now rewrite E0, E1, E2, Hc. }
    destruct r2 as [|c3 r3]; [discriminate|].
    apply andb_true_iff in Hv as [Hc Hv].
    assert (Hc' := Hc). apply andb_true_iff in Hc' as [Hc' Hc3].
    apply andb_true_iff in Hc' as [Hc' Hc2].
    apply andb_true_iff in Hc' as [Hc0 Hc1].
    apply (PS [c0; c1; c2; c3] r3); [discriminate|exact Hv| | | |].
    + apply IH; [simpl in Hn; lia|auto].
    + intros c [<-|[<-|[<-|[]]]]; auto.
      revert Hc1. unfold is_cont, in_range.
      destruct (byte c0 =? 240)%N, (byte c0 =? 244)%N; lia.
    + intros c [= <-]. revert Hc0. unfold is_cont, in_range; lia.
    + intros t. cbn [app valid_utf8]. now rewrite E0, E1, E2, Hc.
Qed.

(** Cutting a valid string at a character boundary gives two valid strings. *)
Lemma valid_firstn s i :
  valid_utf8 s = true -> is_char_boundary s i = true ->
  valid_utf8 (firstn i s) = true /\ valid_utf8 (skipn i s) = true.
Proof.
  intros Hv. revert i. pattern s. apply valid_utf8_ind; [| |exact Hv]; clear s Hv.
  - intros i H. rewrite firstn_nil, skipn_nil. auto.
  - intros u s Hu Hs IH Htl Hhd Happ i H.
    destruct i as [|i]. { simpl. split; [reflexivity|]. rewrite Happ; auto. }
    destruct (le_lt_dec (List.length u) (S i)) as [Hl|Hl].
    + rewrite firstn_app, skipn_app, (firstn_all2 u), (skipn_all2 u) by lia.
      rewrite Happ. cbn [app]. apply IH.
      unfold is_char_boundary in *.
      rewrite nth_error_app2 in H by lia.
      destruct (S i - List.length u) as [|k] eqn:Ek; [reflexivity|].
      destruct (nth_error s (S k)); [exact H|].
      rewrite app_length in H. lia.
    + exfalso. unfold is_char_boundary in H.
      rewrite nth_error_app1 in H by lia.
      destruct u as [|c u]; [simpl in Hl; lia|].
      cbn [nth_error] in H. destruct (nth_error u i) as [d|] eqn:E.
      * apply nth_error_In in E. rewrite (Htl d E) in H. discriminate.
      * apply nth_error_None in E. simpl in Hl. lia.
Qed.

Lemma valid_app a b : valid_utf8 a = true -> valid_utf8 (a ++ b) = valid_utf8 b.
Proof.
  intros Hv. pattern a. apply valid_utf8_ind; [reflexivity| |exact Hv].
  intros u s _ _ IH _ _ Happ. rewrite <- app_assoc, Happ. exact IH.
Qed.
