(** C110: arguments with Serde field attributes. *)
From Coq Require Import List Ascii String Bool Arith NArith Lia.
From Verif Require Import Base Env Opts Sha1 Harness PropsHarness EndToEnd SkipArgs.
From Verif Require Syntax MacroArgs PropsMacroArgs Serde Postcard PropsSerde PropsEndToEnd.
Import ListNotations.
Local Open Scope nat_scope.

(** * Specification *)

(** An argument is kept if its attributes let it be written, whatever its value, and read;
    it is skipped if they let it be neither; [sound] attributes do one of the two.  Only
    arguments with attributes can be skipped. *)
Definition kept (a : attr) : Prop := (forall v, a_written a v = true) /\ a_read a = true.
Definition skipped (a : attr) : Prop := (forall v, a_written a v = false) /\ a_read a = false.
Definition sound (at_ : M.mapped_arg -> attr) (rs : list M.mapped_arg) : Prop :=
  forall r, In r rs -> kept (at_ r) \/ skipped (at_ r) /\ M.m_attrs r <> 0.

(** [vs'] are the values [vs] with those of skipped arguments replaced by their defaults. *)
Definition defaulted (at_ : M.mapped_arg -> attr) (r : M.mapped_arg) (v v' : M.val) : Prop :=
  (kept (at_ r) -> v' = v) /\ (skipped (at_ r) -> v' = a_default (at_ r)).
Inductive replaced (at_ : M.mapped_arg -> attr) : list M.mapped_arg -> list M.val -> list M.val -> Prop :=
  | rp_nil : replaced at_ [] [] []
  | rp_cons r v v' rs vs vs' : defaulted at_ r v v' -> replaced at_ rs vs vs' -> replaced at_ (r :: rs) (v :: vs) (v' :: vs').

(** * Proofs *)

Lemma not_both a : kept a -> skipped a -> False.
Proof. intros (_ & R) (_ & R'). congruence. Qed.

Lemma sound_cons at_ r rs : sound at_ (r :: rs) -> (kept (at_ r) \/ skipped (at_ r) /\ M.m_attrs r <> 0) /\ sound at_ rs.
Proof. intros H. split; [apply H; now left|]. intros r' I. apply H. now right. Qed.

Lemma replaced_exists at_ rs stored : sound at_ rs -> List.length rs = List.length stored -> exists vs, replaced at_ rs stored vs.
Proof.
  revert stored. induction rs as [|r rs IH]; intros [|v stored] So L; try discriminate; [exists []; constructor|].
  apply sound_cons in So as (K & So). destruct (IH stored So ltac:(now injection L)) as (vs & R).
  destruct K as [K|[K _]].
  - exists (v :: vs). constructor; [|exact R]. split; [reflexivity|]. intros K'. destruct (not_both _ K K').
  - exists (a_default (at_ r) :: vs). constructor; [|exact R]. split; [|reflexivity]. intros K'. destruct (not_both _ K' K).
Qed.

Lemma replaced_unique at_ rs stored : sound at_ rs -> forall vs vs', replaced at_ rs stored vs -> replaced at_ rs stored vs' -> vs = vs'.
Proof.
  intros So vs vs' R. revert vs'. induction R as [|r v v' rs vs vs' (D1 & D2) R IH]; intros ws R'; inversion R' as [|? ? w ? ? ws' (D1' & D2') R'']; subst; [reflexivity|].
  apply sound_cons in So as (K & So). f_equal; [|now apply IH]. destruct K as [K|[K _]]; [rewrite D1, D1' by exact K|rewrite D2, D2' by exact K]; reflexivity.
Qed.

(** The kept arguments survive serialisation; nothing is asked of the others. *)
Definition kept_survive (at_ : M.mapped_arg -> attr) (i : impls) (env : nat -> Serde.ty) : list M.mapped_arg -> list M.val -> Prop :=
  List.Forall2 (fun r v => kept (at_ r) -> PropsEndToEnd.survives i env r v).

Lemma at_wt at_ i env rs stored n : sound at_ rs -> kept_survive at_ i env rs stored ->
  Serde.wt env (args_shape_at at_ i rs n) (args_value_at at_ i rs n stored).
Proof.
  intros So F. constructor. apply List.Forall2_app; [|apply PropsEndToEnd.forall2_repeat; constructor].
  induction F as [|r v rs stored S F IH]; [constructor|]. apply sound_cons in So as (K & So). cbn [List.filter written].
  destruct K as [K|[K _]].
  - pose proof (S K) as (W & _). destruct K as (Wr & Rd). rewrite Wr, Rd. cbn [map]. constructor; auto.
  - destruct K as (Wr & Rd). rewrite Wr, Rd. auto.
Qed.

Lemma at_short at_ i env rs stored n : sound at_ rs -> kept_survive at_ i env rs stored ->
  List.Forall PropsSerde.short (PropsSerde.strings (args_value_at at_ i rs n stored)).
Proof.
  intros So F. cbn [args_value_at PropsSerde.strings]. rewrite map_app, concat_app. apply List.Forall_app. split.
  - induction F as [|r v rs stored S F IH]; [constructor|]. apply sound_cons in So as (K & So). cbn [written]. destruct K as [K|[K _]].
    + pose proof (S K) as (_ & W & _). destruct K as (Wr & _). rewrite Wr. cbn [map List.concat]. apply List.Forall_app. auto.
    + destruct K as (Wr & _). rewrite Wr. auto.
  - induction n; [constructor|exact IHn].
Qed.

Lemma at_from at_ i env rs stored vs rest : sound at_ rs -> kept_survive at_ i env rs stored -> replaced at_ rs stored vs ->
  fields_from_at at_ i rs (written at_ i rs stored ++ rest) = Some vs.
Proof.
  intros So F R. revert F. induction R as [|r v v' rs stored vs (D1 & D2) R IH]; intros F; [reflexivity|].
  inversion F as [|? ? ? ? S F']; subst. apply sound_cons in So as (K & So). cbn [written fields_from_at]. destruct K as [K|[K _]].
  - destruct (S K) as (_ & _ & E). rewrite (D1 K). destruct K as (Wr & Rd). rewrite Wr, Rd. cbn [app]. now rewrite E, (IH So F').
  - rewrite (D2 K). destruct K as (Wr & Rd). rewrite Wr, Rd. now rewrite (IH So F').
Qed.

Lemma forall2_len {A B} (P : A -> B -> Prop) l l' : List.Forall2 P l l' -> List.length l = List.length l'.
Proof. induction 1; cbn; congruence. Qed.

(** C110: with attributes that skip an argument on both sides or not at all, what is
    recorded of a call is decoded to the stored values with the defaults in place of
    those of the skipped arguments.  Nothing is asked of the implementations of the
    types of skipped arguments. *)
Theorem C110_round_trip :
  forall (z : bool) (at_ : M.mapped_arg -> attr) (i : impls) (env : nat -> Serde.ty) (rs : list M.mapped_arg) (n : nat) (stored : list M.val),
    sound at_ rs -> kept_survive at_ i env rs stored ->
    exists vs fuel, replaced at_ rs stored vs /\
      forall g, fuel <= g -> args_decode_at z env g at_ i rs n (args_data_at z at_ i rs n stored) = Decoded vs.
Proof.
  intros z at_ i env rs n stored So F.
  destruct (replaced_exists at_ rs stored So (forall2_len _ _ _ F)) as (vs & R).
  destruct (PropsSerde.C14_round_trip z env _ _ [] (at_wt at_ i env rs stored n So F) (at_short at_ i env rs stored n So F)) as (f & D).
  exists vs, f. split; [exact R|]. intros g G. unfold args_decode_at, args_data_at. specialize (D g G). rewrite app_nil_r in D. rewrite D.
  cbn [args_value_at]. now rewrite (at_from at_ i env rs stored vs _ So F R).
Qed.
Print Assumptions C110_round_trip.

(** C110: calls that differ only in skipped arguments, or in how the types of skipped
    arguments would be serialised, are recorded as the same bytes, hence in the same file. *)
Theorem C110_not_recorded :
  forall (z : bool) (at_ : M.mapped_arg -> attr) (i i' : impls) (rs : list M.mapped_arg) (n : nat) (stored stored' vs : list M.val),
    sound at_ rs -> replaced at_ rs stored vs -> replaced at_ rs stored' vs ->
    (forall r v, kept (at_ r) -> i_to i r v = i_to i' r v) ->
    args_data_at z at_ i rs n stored = args_data_at z at_ i' rs n stored' /\
    corpus_name (args_data_at z at_ i rs n stored) = corpus_name (args_data_at z at_ i' rs n stored').
Proof.
  intros z at_ i i' rs n stored stored' vs So R R' I.
  assert (E : args_data_at z at_ i rs n stored = args_data_at z at_ i' rs n stored'); [|now rewrite E].
  unfold args_data_at. f_equal. unfold args_value_at. do 2 f_equal.
  revert stored' R'. induction R as [|r v v' rs stored vs (D1 & D2) R IH]; intros stored' R'; inversion R' as [|? w ? ? ws ? (D1' & D2') R'']; subst; [reflexivity|].
  apply sound_cons in So as (K & So). cbn [written]. destruct K as [K|[K _]].
  - rewrite (D1 K) in D1'. rewrite <- (D1' K). pose proof (I r v K) as Iv. destruct K as (Wr & _). rewrite !Wr, Iv. f_equal. now apply IH.
  - destruct K as (Wr & _). rewrite !Wr. now apply IH.
Qed.
Print Assumptions C110_not_recorded.

(** C110: conversely, calls recorded as the same bytes agree on all arguments that are
    not skipped. *)
Theorem C110_recorded :
  forall (z : bool) (at_ : M.mapped_arg -> attr) (i : impls) (env : nat -> Serde.ty) (rs : list M.mapped_arg) (n : nat) (stored stored' vs vs' : list M.val),
    sound at_ rs -> kept_survive at_ i env rs stored -> kept_survive at_ i env rs stored' ->
    replaced at_ rs stored vs -> replaced at_ rs stored' vs' ->
    args_data_at z at_ i rs n stored = args_data_at z at_ i rs n stored' -> vs = vs'.
Proof.
  intros z at_ i env rs n stored stored' vs vs' So F F' R R' E.
  destruct (C110_round_trip z at_ i env rs n stored So F) as (ws & f & Rw & D).
  destruct (C110_round_trip z at_ i env rs n stored' So F') as (ws' & f' & Rw' & D').
  rewrite (replaced_unique at_ rs stored So _ _ R Rw), (replaced_unique at_ rs stored' So _ _ R' Rw').
  specialize (D (Nat.max f f') ltac:(lia)). specialize (D' (Nat.max f f') ltac:(lia)). rewrite E in D. congruence.
Qed.
Print Assumptions C110_recorded.

(** C110: whatever input a fuzzer comes up with, an argument that is not read has its
    default value in what the input is decoded to. *)
Theorem C110_always_default :
  forall (z : bool) (at_ : M.mapped_arg -> attr) (i : impls) (env : nat -> Serde.ty) (fuel : nat) (rs : list M.mapped_arg) (n : nat) (data : bytes) (vs : list M.val),
    args_decode_at z env fuel at_ i rs n data = Decoded vs ->
    List.Forall2 (fun r v => a_read (at_ r) = false -> v = a_default (at_ r)) rs vs.
Proof.
  intros z at_ i env fuel rs n data vs D. unfold args_decode_at in D. destruct (Postcard.deserialize _ _ _ _ _ _) as [v| |]; try discriminate.
  destruct v; try discriminate. destruct (fields_from_at at_ i rs vs0) as [xs|] eqn:E; [|discriminate]. injection D as ->.
  revert vs0 vs E. induction rs as [|r rs IH]; intros ws vs E; cbn [fields_from_at] in E; [injection E as <-; constructor|].
  destruct (a_read (at_ r)) eqn:A.
  - destruct ws as [|w ws]; [discriminate|]. destruct (i_from i r w); [|discriminate]. destruct (fields_from_at at_ i rs ws) eqn:X; [|discriminate].
    injection E as <-. constructor; [congruence|eapply IH; eauto].
  - destruct (fields_from_at at_ i rs ws) eqn:X; [|discriminate]. injection E as <-. constructor; [reflexivity|eapply IH; eauto].
Qed.
Print Assumptions C110_always_default.

(** C110: without attributes nothing changes. *)
Theorem C110_plain :
  forall (z : bool) (at_ : M.mapped_arg -> attr) (i : impls) (env : nat -> Serde.ty) (rs : list M.mapped_arg) (n : nat),
    (forall r, In r rs -> kept (at_ r)) ->
    (forall stored, args_data_at z at_ i rs n stored = args_data z i rs n stored) /\
    (forall fuel data, args_decode_at z env fuel at_ i rs n data = args_decode z env fuel i rs n data).
Proof.
  intros z at_ i env rs n K. split.
  - intros stored. unfold args_data_at, args_data, args_value_at, args_value. do 3 f_equal.
    revert stored. induction rs as [|r rs IH]; intros [|v stored]; cbn [written field_values]; auto.
    rewrite (proj1 (K r (or_introl eq_refl))). f_equal. apply IH. intros. apply K. now right.
  - intros fuel data. unfold args_decode_at, args_decode.
    assert (S : args_shape_at at_ i rs n = args_shape i rs n).
    { unfold args_shape_at, args_shape. do 3 f_equal. induction rs as [|r rs IH]; [reflexivity|]. cbn [List.filter].
      rewrite (proj2 (K r (or_introl eq_refl))). f_equal. apply IH. intros. apply K. now right. }
    rewrite S. destruct (Postcard.deserialize _ _ _ _ _ _) as [v| |]; auto. destruct v; auto.
    assert (E : fields_from_at at_ i rs vs = fields_from i rs vs); [|now rewrite E].
    clear S. revert vs. induction rs as [|r rs IH]; intros vs; [destruct vs; reflexivity|]. cbn [fields_from_at fields_from].
    rewrite (proj2 (K r (or_introl eq_refl))). destruct vs; [reflexivity|]. rewrite IH; [reflexivity|]. intros. apply K. now right.
Qed.
Print Assumptions C110_plain.

(** The argument is rebuilt from its own field. *)
Fixpoint reads (x : str) (e : M.expr) : Prop :=
  match e with
  | M.EField y => y = x
  | M.ERef _ e | M.EAsStr _ e | M.EAsSlice _ e | M.EInto e => reads x e
  | _ => False
  end.

Lemma ev_reads w vars fields fields' x e : reads x e -> fields x = fields' x -> forall t v, M.ev w vars fields e t v -> M.ev w vars fields' e t v.
Proof.
  intros R E. induction e; cbn [reads] in R; try (now destruct R); intros t v H; inversion H; subst; try (econstructor; eauto; fail).
  constructor. now rewrite <- E.
Qed.

Lemma map_typed_reads c x : forall t cands e, reads x (snd (snd (M.map_typed_arg c cands x e t))).
Proof.
  induction t; intros cands e; cbn [M.map_typed_arg]; destruct (M.tget c (Syntax.toks _)); cbn [snd reads]; auto.
  destruct t; cbn [snd reads M.re_ref]; auto; try (destruct (M.is_str _); cbn [snd reads M.re_ref]; now auto);
    match goal with |- context [M.map_typed_arg ?c ?l ?x ?e ?t] => specialize (IHt l e); destruct (M.map_typed_arg c l x e t) as [[? ?] [[? ?] ?]] end;
    cbn [snd] in IHt; cbn [snd M.re_ref reads]; exact IHt.
Qed.

Definition own_field (r : M.mapped_arg) : Prop :=
  reads (M.m_ident r) (PropsMacroArgs.de r) /\
  (M.m_attrs r <> 0 -> PropsMacroArgs.de r = M.EField (M.m_ident r) /\ PropsMacroArgs.stored_type r = M.m_type r).

Lemma finish_own s n x lab e t s' r : M.finish s n x lab e t = (s', r) -> own_field r.
Proof.
  destruct s as [[c cands] draws]. intros H. unfold M.finish in H. destruct n.
  - pose proof (map_typed_reads c x t cands e) as P. destruct (M.map_typed_arg c cands x e t) as [[c' cands'] m]. injection H as <- <-.
    split; [exact P|]. cbn. intros K. now destruct K.
  - injection H as <- <-. split; [reflexivity|]. intros _. split; reflexivity.
Qed.

Lemma expand_own tp self opts draws l rs : M.expand_args tp self opts draws l = Ret rs -> forall r, In r rs -> own_field r.
Proof.
  intros E. unfold M.expand_args in E. apply PropsMacroArgs.bind_ret in E as (c & C & E). apply PropsMacroArgs.bind_ret in E as ([s rs'] & Q & E).
  cbn [fst snd] in E. destruct (M.all_used _); [|discriminate]. injection E as ->. clear C.
  revert s Q. generalize (c, @nil (list Syntax.tok), draws). revert rs. induction l as [|a l IH]; intros rs s0 s Q.
  - injection Q as <- <-. intros r [].
  - cbn [M.map_args] in Q. apply PropsMacroArgs.bind_ret in Q as ([s1 r1] & Q1 & Q). apply PropsMacroArgs.bind_ret in Q as ([s2 rs2] & Q2 & Q).
    cbn [fst snd] in Q2, Q. injection Q as <- <-. intros r [<-|I]; [|eapply IH; eauto].
    destruct s0 as [[c0 cands0] draws0]. unfold M.map_arg in Q1. destruct a as [n m k|n p t].
    + destruct (M.draw draws0). apply PropsMacroArgs.bind_ret in Q1 as (t & _ & Q1). apply PropsMacroArgs.ret_inj in Q1. eapply finish_own; eauto.
    + apply PropsMacroArgs.bind_ret in Q1 as (xd & _ & Q1). apply PropsMacroArgs.bind_ret in Q1 as (t' & _ & Q1). apply PropsMacroArgs.ret_inj in Q1. eapply finish_own; eauto.
Qed.

Lemma record_at rs vs x : List.NoDup (map M.m_ident rs) -> forall k r v, nth_error rs k = Some r -> nth_error vs k = Some v -> M.m_ident r = x ->
  PropsMacroArgs.record rs vs x = Some (PropsMacroArgs.stored_type r, v).
Proof.
  revert vs. induction rs as [|r0 rs IH]; intros vs N k r v R V X; [destruct k; discriminate|]. destruct vs as [|v0 vs]; [destruct k; discriminate|].
  cbn [map] in N. inversion N as [|? ? N1 N2]; subst. cbn [PropsMacroArgs.record]. destruct k as [|k]; cbn [nth_error] in R, V.
  - injection R as ->. injection V as ->. now rewrite str_eqb_refl.
  - destruct (str_eqb (M.m_ident r0) (M.m_ident r)) eqn:E; [|eapply IH; eauto]. apply str_eqb_eq in E. destruct N1. rewrite E.
    apply in_map. eapply nth_error_In; eauto.
Qed.

Lemma forall2_at {A B} (P : A -> B -> Prop) l l' : List.Forall2 P l l' -> forall k a, nth_error l k = Some a -> exists b, nth_error l' k = Some b /\ P a b.
Proof. induction 1; intros [|k] c E; try discriminate; cbn in *; [injection E as <-; eauto|eauto]. Qed.
Lemma at_forall2 {A B} (P : A -> B -> Prop) l l' : List.length l = List.length l' ->
  (forall k a b, nth_error l k = Some a -> nth_error l' k = Some b -> P a b) -> List.Forall2 P l l'.
Proof.
  revert l'. induction l as [|a l IH]; intros [|b l'] L H; try discriminate; constructor; [apply (H 0); reflexivity|].
  apply IH; [now injection L|]. intros k. apply (H (S k)).
Qed.
Lemma replaced_at at_ rs vs vs' : replaced at_ rs vs vs' -> List.length rs = List.length vs /\ List.length rs = List.length vs' /\
  forall k r v v', nth_error rs k = Some r -> nth_error vs k = Some v -> nth_error vs' k = Some v' -> defaulted at_ r v v'.
Proof.
  induction 1 as [|r v v' rs vs vs' D R IH].
  - split; [reflexivity|]. split; [reflexivity|]. intros [|k]; discriminate.
  - destruct IH as (I1 & I2 & I3). split; [cbn; congruence|]. split; [cbn; congruence|]. intros [|k] r0 v0 v0' E1 E2 E3; cbn [nth_error] in *; [congruence|].
    eapply I3; eauto.
Qed.

(** C110: the arguments rebuilt from what was decoded are those of the original call, with
    the defaults in place of skipped ones. *)
Theorem C110_rebuilt :
  forall w tp self opts draws l rs at_ stored stored' vals vals',
    M.expand_args tp self opts draws l = Ret rs -> List.NoDup (map M.m_ident rs) -> sound at_ rs ->
    PropsEndToEnd.rebuilt w rs stored vals -> replaced at_ rs stored stored' -> replaced at_ rs vals vals' ->
    PropsEndToEnd.rebuilt w rs stored' vals'.
Proof.
  intros w tp self opts draws l rs at_ stored stored' vals vals' E N So B R R'.
  pose proof (expand_own _ _ _ _ _ _ E) as Ow. destruct (replaced_at _ _ _ _ R) as (L1 & L2 & D). destruct (replaced_at _ _ _ _ R') as (L3 & L4 & D').
  apply at_forall2; [exact L4|]. intros k r v' Kr Kv'.
  destruct (forall2_at _ _ _ B k r Kr) as (v & Kv & H). specialize (D' k r v v' Kr Kv Kv').
  assert (Lk : k < List.length rs) by (apply nth_error_Some; congruence).
  destruct (nth_error stored k) as [s|] eqn:Ks; [|apply nth_error_None in Ks; lia].
  destruct (nth_error stored' k) as [s'|] eqn:Ks'; [|apply nth_error_None in Ks'; lia].
  specialize (D k r s s' Kr Ks Ks'). pose proof (nth_error_In _ _ Kr) as I. destruct (Ow r I) as (Rd & At). destruct (So r I) as [K|[K A]].
  - rewrite (proj1 D' K). eapply ev_reads; [exact Rd| |exact H].
    rewrite (record_at rs stored _ N k r s Kr Ks eq_refl), (record_at rs stored' _ N k r s' Kr Ks' eq_refl). now rewrite (proj1 D K).
  - rewrite (proj2 D' K). destruct (At A) as (-> & T). rewrite <- T. constructor.
    rewrite (record_at rs stored' _ N k r s' Kr Ks' eq_refl). now rewrite (proj2 D K).
Qed.
Print Assumptions C110_rebuilt.

(** C110: replaying the recorded call: the target is called exactly once, with the
    arguments of the original call except that skipped ones have their defaults; its
    verdict is the one reported. *)
Theorem C110_replayed :
  forall (R : Type) w tp self opts draws l rs z at_ i n env stored vals vals' data,
    M.expand_args tp self opts draws l = Ret rs -> List.NoDup (map M.m_ident rs) -> sound at_ rs ->
    PropsEndToEnd.rebuilt w rs stored vals -> replaced at_ rs vals vals' -> kept_survive at_ i env rs stored ->
    data = args_data_at z at_ i rs n stored ->
    exists fuel, forall g (u : user (list M.val) R) (tgt : list M.val -> option R) (h : Env.env) nontrivial,
      fuel <= g ->
      (forall d, u_decode u d = args_decode_at z env g at_ i rs n d) ->
      (forall a args, PropsEndToEnd.rebuilt w rs a args -> u_target u a = tgt args) ->
      test_fuzz_enabled h = true -> replay_enabled h = true -> display_enabled h = false -> coverage_enabled h = false ->
      (exists a, calls (fst (entry u h nontrivial data)) = [a] /\ u_target u a = tgt vals') /\
      (tgt vals' = None -> snd (entry u h nontrivial data) = HFail) /\
      (forall r, tgt vals' = Some r -> u_show_ret u r = true -> snd (entry u h nontrivial data) = HPass).
Proof.
  intros R w tp self opts draws l rs z at_ i n env stored vals vals' data E N So B Rv Sv ->.
  destruct (C110_round_trip z at_ i env rs n stored So Sv) as (stored' & fuel & Rs & D). exists fuel.
  intros g u tgt h nt G Hd Ht Te Re Di Co. pose proof (C110_rebuilt w tp self opts draws l rs at_ stored stored' vals vals' E N So B Rs Rv) as B'.
  set (data := args_data_at z at_ i rs n stored) in *.
  assert (De : u_decode u data = Decoded stored') by (rewrite Hd; now apply D).
  assert (Tg : u_target u stored' = tgt vals') by (apply Ht; exact B').
  assert (Sh : display_enabled h = true -> u_show_args u stored' = true) by congruence.
  destruct (C30_called_once _ _ u h nt data Te (or_intror (or_intror Re))) as (Ca & _).
  split; [exists stored'; split; [apply Ca; assumption|exact Tg]|]. split.
  - intros Np. apply (proj2 (C30_panic _ _ u h nt _ stored' Te De ltac:(congruence) Sh)). now right.
  - intros r Hr Sr. rewrite (proj2 (C30_returns _ _ u h nt _ stored' r Te De ltac:(congruence) Sr Di Co) Re). reflexivity.
Qed.
Print Assumptions C110_replayed.

(** ** An example *)

(** [fn target(#[serde(skip)] context: Context, y: Vec<u8>)]. *)
Definition ex_params : list M.fn_arg :=
  [M.Typed 1 (M.PatIdent (lit "context") None) (Syntax.rname "Context"); M.Typed 0 (M.PatIdent (lit "y") None) (Syntax.rapp "Vec" [Syntax.rname "u8"])].
Definition is_context (r : M.mapped_arg) : bool := str_eqb (M.m_ident r) (lit "context").
(** [Context] would be a number; the elements of [y] are numbers as well. *)
Definition ex_impls : impls := {|
  i_shape := fun r => if is_context r then Serde.TU8 else Serde.TSeq Serde.TU8;
  i_to := fun r v => match v with
                     | M.VOther n => Serde.VU8 (ascii_of_nat n)
                     | M.VVec l => Serde.VSeq (map (fun v => match v with M.VOther n => Serde.VU8 (ascii_of_nat n) | _ => Serde.VUnit end) l)
                     | _ => Serde.VUnit
                     end;
  i_from := fun r v => match v with
                       | Serde.VU8 a => Some (M.VOther (nat_of_ascii a))
                       | Serde.VSeq l => Some (M.VVec (map (fun v => match v with Serde.VU8 a => M.VOther (nat_of_ascii a) | _ => M.VOther 0 end) l))
                       | _ => None
                       end |}.
Definition ex_attrs (a : attr) (r : M.mapped_arg) : attr := if is_context r then a else plain (M.VOther 0).

(** C110: [skip_serializing] alone is accepted, and a recorded call may be decoded as
    another one in which arguments without any attributes differ: the call with
    [y = [0]] comes back with [y = []]. *)
Theorem C110_one_sided_refuted :
  exists (rs : list M.mapped_arg) (at_ : M.mapped_arg -> attr) (i : impls) (stored stored' : list M.val) (r : M.mapped_arg) (v v' : M.val),
    M.expand_args None None [] [] ex_params = Ret rs /\
    nth_error rs 1 = Some r /\ M.m_attrs r = 0 /\ kept (at_ r) /\
    (forall v, i_from i r (i_to i r (M.VVec (map M.VOther v))) = Some (M.VVec (map M.VOther (map (fun n => nat_of_ascii (ascii_of_nat n)) v)))) /\
    nth_error stored 1 = Some v /\ nth_error stored' 1 = Some v' /\ v <> v' /\
    forall z, args_decode_at z (fun _ => Serde.TUnit) 5 at_ i rs 0 (args_data_at z at_ i rs 0 stored) = Decoded stored'.
Proof.
  eexists. exists (ex_attrs (skip_serializing (M.VOther 0))), ex_impls, [M.VOther 9; M.VVec [M.VOther 0]], [M.VOther 1; M.VVec []]. do 3 eexists.
  split; [vm_compute; reflexivity|]. split; [reflexivity|]. split; [reflexivity|]. split; [split; reflexivity|].
  split; [intros v; cbn; do 2 f_equal; rewrite !map_map; reflexivity|].
  split; [reflexivity|]. split; [reflexivity|]. split; [discriminate|]. intros []; vm_compute; reflexivity.
Qed.
Print Assumptions C110_one_sided_refuted.

Example C110_example :
  exists rs, M.expand_args None None [] [] ex_params = Ret rs /\
    let at_ := ex_attrs (skip (M.VOther 7)) in
    let stored := [M.VOther 9; M.VVec [M.VOther 1; M.VOther 2]] in
    sound at_ rs /\ kept_survive at_ ex_impls (fun _ => Serde.TUnit) rs stored /\
    args_data_at true at_ ex_impls rs 0 stored = map ascii_of_nat [2; 1; 2] /\
    args_data true ex_impls rs 0 stored = map ascii_of_nat [9; 2; 1; 2] /\
    args_decode_at true (fun _ => Serde.TUnit) 5 at_ ex_impls rs 0 (map ascii_of_nat [2; 1; 2]) = Decoded [M.VOther 7; M.VVec [M.VOther 1; M.VOther 2]] /\
    replaced at_ rs stored [M.VOther 7; M.VVec [M.VOther 1; M.VOther 2]] /\
    args_decode_at true (fun _ => Serde.TUnit) 5 at_ ex_impls rs 0 (map ascii_of_nat [1; 5]) = Decoded [M.VOther 7; M.VVec [M.VOther 5]].
Proof.
  eexists. split; [vm_compute; reflexivity|]. cbv zeta. split.
  { intros r [<-|[<-|[]]]; [right; split; [split; [intros v|]; reflexivity|discriminate]|left; split; [intros v|]; reflexivity]. }
  split.
  { constructor; [intros (_ & K); discriminate K|]. constructor; [|constructor]. intros _. split; [|split].
    - cbn. constructor; [reflexivity|]. repeat constructor.
    - cbn. constructor.
    - reflexivity. }
  split; [vm_compute; reflexivity|]. split; [vm_compute; reflexivity|]. split; [vm_compute; reflexivity|]. split.
  { constructor; [|constructor; [|constructor]]; split; intros (K & K'); try discriminate K'; try reflexivity. }
  vm_compute; reflexivity.
Qed.
