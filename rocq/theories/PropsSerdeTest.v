(** Theorems about the test that the names of variants are not recorded (C130). *)
From Coq Require Import List Ascii String Bool Arith Lia NArith ZifyBool ZifyN ZifyNat.
From Verif Require Import Base Utf8 Serde SerdeTest.
From Verif Require Postcard Bincode.
Import ListNotations.
Local Open Scope N_scope.

Lemma is_upper_spec n : n < 256 -> is_upper (ascii_of_N n) = true <-> 65 <= n <= 90.
Proof. intros L. unfold is_upper. rewrite (Postcard.byte_of_N n L). lia. Qed.

Lemma enc_variants c is : enc c (unit_variants is) = List.concat (map (fun i => c_uint c (N.of_nat i)) is).
Proof. unfold unit_variants. cbn [enc]. rewrite map_map. cbn [enc]. f_equal. apply map_ext. intros i. apply app_nil_r. Qed.

Lemma no_upper_concat (l : list bytes) : existsb is_upper (List.concat l) = true <-> exists s, In s l /\ existsb is_upper s = true.
Proof.
  induction l as [|s l IH]; cbn [List.concat]; [split; [discriminate|intros (? & [] & _)]|]. rewrite existsb_app, orb_true_iff, IH. split.
  - intros [H|(t & I & H)]; [exists s; split; [now left|exact H]|exists t; split; [now right|exact H]].
  - intros (t & [<-|I] & H); [now left|right; eauto].
Qed.

Lemma pow_step k : 128 ^ N.of_nat (S k) = 128 * 128 ^ N.of_nat k.
Proof. rewrite Nat2N.inj_succ, N.pow_succ_r'. reflexivity. Qed.

Lemma leb_upper f : forall n, n < 128 ^ N.of_nat f -> (existsb is_upper (Postcard.leb f n) = true <-> begins_upper n).
Proof.
  induction f as [|f IH]; intros n L.
  - cbn in L. cbn [Postcard.leb existsb]. split; [discriminate|]. intros (k & H). assert (n = 0) by lia. subst n. rewrite N.div_0_l in H by (apply N.pow_nonzero; lia). lia.
  - cbn [Postcard.leb]. destruct (N.ltb_spec n 128) as [S|S]; cbn [existsb].
    + rewrite orb_false_r, is_upper_spec by lia. split.
      * intros H. exists 0%nat. cbn. now rewrite N.div_1_r.
      * intros (k & H). destruct k as [|k]; [cbn in H; now rewrite N.div_1_r in H|].
        rewrite pow_step, <- N.div_div in H by (try apply N.pow_nonzero; lia). rewrite (N.div_small n 128 S), N.div_0_l in H by (apply N.pow_nonzero; lia). lia.
    + assert (U : is_upper (ascii_of_N (n mod 128 + 128)) = false).
      { pose proof (N.mod_lt n 128 ltac:(lia)). destruct (is_upper _) eqn:E; [|reflexivity]. apply is_upper_spec in E; lia. }
      rewrite U. cbn [orb]. rewrite IH.
      * split; intros (k & H).
        -- exists (Datatypes.S k). rewrite pow_step, <- N.div_div by (try apply N.pow_nonzero; lia). exact H.
        -- destruct k as [|k]; [cbn in H; rewrite N.div_1_r in H; lia|]. exists k. rewrite pow_step, <- N.div_div in H by (try apply N.pow_nonzero; lia). exact H.
      * rewrite pow_step in L. apply N.div_lt_upper_bound; lia.
Qed.

Lemma le_upper k : forall n, existsb is_upper (Bincode.le k n) = true <-> exists j, (j < k)%nat /\ 65 <= (n / 256 ^ N.of_nat j) mod 256 <= 90.
Proof.
  induction k as [|k IH]; intros n; cbn [Bincode.le existsb]; [split; [discriminate|intros (j & J & _); lia]|].
  rewrite orb_true_iff, IH, is_upper_spec by (apply N.mod_lt; lia).
  assert (D : forall j, n / 256 / 256 ^ N.of_nat j = n / 256 ^ N.of_nat (S j)).
  { intros j. rewrite Nat2N.inj_succ, N.pow_succ_r', N.div_div by (try apply N.pow_nonzero; lia). reflexivity. }
  split.
  - intros [H|(j & J & H)]; [exists 0%nat; cbn; rewrite N.div_1_r; split; [lia|exact H]|exists (S j); rewrite <- D; split; [lia|exact H]].
  - intros ([|j] & J & H); [left; cbn in H; now rewrite N.div_1_r in H|right; exists j; rewrite D; split; [lia|exact H]].
Qed.

Lemma varint_upper n : n < 2 ^ 32 -> (existsb is_upper (Bincode.varint_encode n) = true <-> has_upper n).
Proof.
  intros L. unfold Bincode.varint_encode, has_upper.
  assert (B : forall k, n < 256 ^ N.of_nat k -> (exists j, (j < k)%nat /\ 65 <= (n / 256 ^ N.of_nat j) mod 256 <= 90) <-> exists j, 65 <= (n / 256 ^ N.of_nat j) mod 256 <= 90).
  { intros k K. split; [intros (j & _ & H); eauto|]. intros (j & H). exists j. split; [|exact H]. destruct (le_lt_dec k j) as [G|G]; [|exact G]. exfalso.
    rewrite N.div_small in H; [rewrite N.mod_0_l in H; lia|]. eapply N.lt_le_trans; [exact K|]. apply N.pow_le_mono_r; lia. }
  destruct (N.ltb_spec n 251) as [A|A].
  - cbn [existsb]. rewrite orb_false_r, is_upper_spec by lia. split; [intros H; left; lia|]. intros [(_ & H)|(H & _)]; [exact H|lia].
  - destruct (N.ltb_spec n (2 ^ 16)) as [C|C]; [|destruct (N.ltb_spec n (2 ^ 32)) as [D|D]; [|lia]];
      change (existsb is_upper (?a :: ?l)) with (is_upper a || existsb is_upper l).
    + cbn [existsb]. change (is_upper (ascii_of_N 251)) with false. cbn [orb]. rewrite le_upper, B by (cbn; lia).
      split; [intros H; right; split; [lia|exact H]|]. intros [(H & _)|(_ & H)]; [lia|exact H].
    + cbn [existsb]. change (is_upper (ascii_of_N 252)) with false. cbn [orb]. rewrite le_upper, B by (cbn; lia).
      split; [intros H; right; split; [lia|exact H]|]. intros [(H & _)|(_ & H)]; [lia|exact H].
Qed.

(** The test succeeds on recorded unit variants exactly if no index is a number of a certain form,
    which depends on the format. *)
Theorem C130_exact :
  forall (eof_zero sticky : bool) (calls : list (list nat)),
    Forall (Forall (fun i => N.of_nat i < 2 ^ 32)) calls ->
    (no_names (map (fun is => Postcard.serialize eof_zero sticky (unit_variants is)) calls) = true <->
     forall is i, In is calls -> In i is -> ~ begins_upper (N.of_nat i)) /\
    (no_names (map (fun is => Bincode.serialize (unit_variants is)) calls) = true <->
     forall is i, In is calls -> In i is -> ~ has_upper (N.of_nat i)).
Proof.
  intros ez st calls W.
  assert (G : forall (c : codec) (P : N -> Prop), (forall n, n < 2 ^ 32 -> (existsb is_upper (c_uint c n) = true <-> P n)) ->
    (no_names (map (fun is => enc c (unit_variants is)) calls) = true <-> forall is i, In is calls -> In i is -> ~ P (N.of_nat i))).
  { intros c P H. unfold no_names. rewrite forallb_forall. rewrite Forall_forall in W. split.
    - intros F is i I J X. specialize (F (enc c (unit_variants is))). rewrite negb_true_iff in F.
      assert (E : existsb is_upper (enc c (unit_variants is)) = true).
      { rewrite enc_variants. apply no_upper_concat. exists (c_uint c (N.of_nat i)). split; [apply in_map_iff; eauto|]. apply H; [|exact X].
        specialize (W is I). rewrite Forall_forall in W. auto. }
      rewrite F in E; [discriminate|]. apply in_map_iff. eauto.
    - intros F e I. apply in_map_iff in I as (is & <- & I). apply negb_true_iff. destruct (existsb is_upper (enc c (unit_variants is))) eqn:E; [exfalso|reflexivity].
      rewrite enc_variants in E. apply no_upper_concat in E as (s & J & E). apply in_map_iff in J as (i & <- & J). apply (F is i I J). apply H; [|exact E].
      specialize (W is I). rewrite Forall_forall in W. auto. }
  split; apply G.
  - intros n L. apply leb_upper. eapply N.lt_le_trans; [exact L|]. vm_compute. discriminate.
  - exact varint_upper.
Qed.
Print Assumptions C130_exact.

(** So it succeeds for all enums with at most 65 variants, as the one it is run on. *)
Theorem C130_few :
  forall (eof_zero sticky : bool) (calls : list (list nat)),
    Forall (Forall (fun i => (i < 65)%nat)) calls ->
    no_names (map (fun is => Postcard.serialize eof_zero sticky (unit_variants is)) calls) = true /\
    no_names (map (fun is => Bincode.serialize (unit_variants is)) calls) = true.
Proof.
  intros ez st calls W. assert (W' : Forall (Forall (fun i => N.of_nat i < 2 ^ 32)) calls).
  { eapply Forall_impl; [|exact W]. intros is F. eapply Forall_impl; [|exact F]. intros i H. cbn beta in H. change (2 ^ 32) with 4294967296. lia. }
  destruct (C130_exact ez st calls W') as (P & B). rewrite Forall_forall in W. split; [apply P|apply B]; intros is i I J H; specialize (W is I); rewrite Forall_forall in W; specialize (W i J).
  - destruct H as (k & H1 & _). assert (N.of_nat i / 128 ^ N.of_nat k <= N.of_nat i).
    { apply N.div_le_upper_bound; [apply N.pow_nonzero; lia|]. assert (128 ^ N.of_nat k <> 0) by (apply N.pow_nonzero; lia). nia. }
    lia.
  - destruct H as [H|H]; lia.
Qed.
Print Assumptions C130_few.

(** An enum with more would fail it although no names are recorded; and what it would succeed on is
    not the same for the formats. *)
Theorem C130_few_refuted :
  exists i j : nat,
    no_names [Postcard.serialize false false (unit_variants [i])] = false /\ no_names [Bincode.serialize (unit_variants [i])] = false /\
    no_names [Postcard.serialize false false (unit_variants [j])] = true /\ no_names [Bincode.serialize (unit_variants [j])] = false.
Proof. exists 65%nat, 321%nat. vm_compute. repeat split. Qed.
Print Assumptions C130_few_refuted.

(** The call of the test, in both formats, and a format that would have the names. *)
Example C130_example :
  Postcard.serialize false false (unit_variants [0; 1; 1]%nat) = [ascii_of_N 0; ascii_of_N 1; ascii_of_N 1] /\
  no_names [Postcard.serialize false false (unit_variants [0; 1; 1]%nat)] = true /\
  no_names [Bincode.serialize (unit_variants [0; 1; 1]%nat)] = true /\
  no_names [lit "a"; lit "cAa"] = false.
Proof. vm_compute. repeat split. Qed.
