(** C102: consolidating beside running tests and fuzzers. *)
From Coq Require Import List Ascii String Bool Arith Lia.
From stdpp Require Import gmap strings list.
From Verif Require Import Base Dirs Sha1 Fs Write WriteConc Opts ConsConc.
From Verif Require Consolidate.
Import ListNotations.
Opaque sha1 corpus_name.

(** * Specification *)

(** The invocation copies findings before it removes them. *)
Definition consolidates (o : opts) : Prop :=
  o_consolidate_all o = true \/ (o_consolidate o = true /\ o_reset_all o = false).

(** The invocation resets a target with the output [p]. *)
Definition removes (td : path) (c : call) (p : path) : Prop :=
  exists krate target d, Consolidate.selected (c_ets c) krate target /\ dir_from_target td (c_id c) Output krate target = Ret d /\ under d p.

(** The recorders of different data record under different names. *)
Definition apart (rs : list recorder) : Prop :=
  forall p q, p ∈ rs -> q ∈ rs -> sha1 (r_data p) = sha1 (r_data q) -> r_data p = r_data q.

(** [b] is in a file of the corpus of the target under its name. *)
Definition in_corpus (td : path) (id : option str) (krate target : str) (b : bytes) (m : fs) : Prop :=
  exists d, dir_from_target td id Corpus krate target = Ret d /\ fs_read m (d ++ [corpus_name b]) = Some b.

(** * Proofs *)

Lemma ret_inj A (a b : A) : Ret a = Ret b -> a = b.
Proof. congruence. Qed.

Lemma intact m rs r : inv (m, rs) -> (forall q, q ∈ rs -> r_path q = r_path r -> r_st q = SDone) -> r ∈ rs -> m !! r_path r = Some (File (r_data r)).
Proof.
  intros (_ & _ & F) Done Ir. cbn [fst snd] in F. destruct (F r Ir (or_intror (Done r Ir eq_refl))) as (b & Lb & Len & Z & P).
  rewrite Lb. do 2 f_equal. apply nth_error_ext. intros i. destruct (decide (i < List.length (r_data r))) as [Hi|Hi].
  - destruct (P i Hi) as [E|(q & Iq & Eq & [[D|D]|(off & D & _)])]; [exact E|..]; rewrite (Done q Iq Eq) in D; discriminate.
  - rewrite (proj2 (nth_error_None (r_data r) i)) by lia. apply nth_error_None. lia.
Qed.

Definition recorded (c : path) (b : bytes) (rs : list recorder) : Prop :=
  exists r, r ∈ rs /\ r_dir r = c /\ r_data r = b /\ r_st r = SDone.

Section Tool.
  Variables (td : path) (id : option str) (o : opts) (ets : list (str * list str)).
  Let fin := resetting td id o ets.
  Let zone := Consolidate.zone td.

  Definition job (cd : path * path) : Prop :=
    exists k t sub, Consolidate.selected ets k t /\ In sub [lit "crashes"; lit "hangs"; lit "queue"] /\
      cd = (Consolidate.corpus_of td id k t, Consolidate.output_of td id k t ++ [lit "default"; sub]).

  Lemma target_dirs_eq k t : target_dirs td id k t =
    Ret (map (fun sub => (Consolidate.corpus_of td id k t, Consolidate.output_of td id k t ++ [lit "default"; sub])) [lit "crashes"; lit "hangs"; lit "queue"]).
  Proof. unfold target_dirs. now rewrite Consolidate.corpus_of_eq, !Consolidate.output_sub_eq. Qed.

  Lemma over_targets_in {A} all (f : str -> str -> outcome (list A)) l a :
    over_targets all f ets = Ret l -> In a l <-> exists k t la, Consolidate.selected ets k t /\ f k t = Ret la /\ In a la.
  Proof.
    unfold over_targets. destruct (assertions all ets); [|discriminate].
    set (kts := flat_map _ ets). destruct (mapM _ kts) as [ls|e|] eqn:M; try discriminate. cbn. intros [= <-].
    apply mapM_ret in M. rewrite in_concat. split.
    - intros (la & I & J). assert (exists kt, In kt kts /\ f kt.1 kt.2 = Ret la) as ([k t] & Ik & F).
      { clear -M I. induction M as [|kt la' kts ls E M IH]; [destruct I|]. destruct I as [->|I]; [exists kt; split; [now left|exact E]|].
        destruct (IH I) as (kt' & ? & ?). exists kt'. split; [now right|assumption]. }
      exists k, t, la. split; [|auto]. apply in_flat_map in Ik as ([k' ts] & I1 & I2). cbn [fst snd] in *.
      apply in_map_iff in I2 as (t' & [= <- <-] & I2). exists ts. auto.
    - intros (k & t & la & (ts & I1 & I2) & F & J). assert (Ik : In (k, t) kts).
      { apply in_flat_map. exists (k, ts). split; [exact I1|]. apply in_map_iff. eauto. }
      clear -M Ik F J. induction M as [|kt la' kts ls E M IH]; [destruct Ik|]. destruct Ik as [->|Ik].
      + exists la. split; [|exact J]. left. cbn in E. congruence.
      + destruct (IH Ik) as (la2 & ? & ?). exists la2. split; [now right|assumption].
  Qed.

  Lemma consolidation_jobs todo : consolidation td id o ets = Ret todo ->
    (forall cd, In cd todo -> job cd) /\ (consolidates o -> forall cd, job cd -> In cd todo).
  Proof.
    intros E.
    assert (O : over_targets (o_consolidate_all o) (target_dirs td id) ets = Ret todo -> forall cd, In cd todo <-> job cd).
    { intros H cd. rewrite (over_targets_in _ _ _ cd H). unfold job. split.
      - intros (k & t & la & S & T & I). rewrite target_dirs_eq in T. apply ret_inj in T. rewrite <- T in I. apply in_map_iff in I as (sub & <- & I). exists k, t, sub. auto.
      - intros (k & t & sub & S & I & ->). exists k, t. eexists. split; [exact S|]. split; [apply target_dirs_eq|].
        apply in_map_iff. exists sub. split; [reflexivity|exact I]. }
    unfold consolidation in E.
    destruct (if o_consolidate_all o || o_reset_all o then o_consolidate_all o else o_consolidate o) eqn:C.
    - split; [intros cd; apply (O E)|intros _ cd; apply (O E)].
    - injection E as <-. split; [intros cd []|]. intros [A|[A B]]; exfalso; [rewrite A in C; discriminate C|].
      destruct (o_consolidate_all o); cbn in C; [discriminate C|]. rewrite B in C. cbn in C. congruence.
  Qed.

  Lemma job_parts c d n : job (c, d) -> (exists k t, c = Consolidate.corpus_of td id k t) /\ under zone (d ++ [n]).
  Proof.
    intros (k & t & sub & _ & _ & [= -> ->]). split; [eauto|]. apply Consolidate.sub_in_zone.
  Qed.

  Lemma fin_zone ds d : fin = Ret ds -> In d ds -> exists k t, Consolidate.selected ets k t /\ d = Consolidate.output_of td id k t.
  Proof.
    intros E I. apply (over_targets_in _ _ _ d E) in I as (k & t & la & Sel & F & I). rewrite Consolidate.output_of_eq in F.
    cbn in F. injection F as <-. destruct I as [<-|[]]. eauto.
  Qed.

  (** What the tool has before it. *)
  Definition tool_ok (t : tool) : Prop :=
    match t with
    | TDir todo => Forall job todo
    | TList c d _ todo | TRead c d _ _ todo | TWait _ c d _ _ todo => job (c, d) /\ Forall job todo
    | TReset ds => exists ds0, fin = Ret ds0 /\ incl ds ds0
    | TRm d ds => exists ds0, fin = Ret ds0 /\ incl (d :: ds) ds0
    | TEnd _ => True
    end.

  (** No recorder writes in the fuzzers' directories. *)
  Definition recs_ok (rs : list recorder) : Prop := forall r, r ∈ rs -> ~ under zone (r_path r).

  Lemma corpus_rec k t b : ~ under zone (r_path (Rec (Consolidate.corpus_of td id k t) b (SMkdir 0))).
  Proof. intros U. exact (Consolidate.corpus_not_zone td id k t [corpus_name b] _ U eq_refl). Qed.

  Lemma recs_app rs r : recs_ok rs -> ~ under zone (r_path r) -> recs_ok (rs ++ [r]).
  Proof. intros H N q I. apply elem_of_app in I as [I|I]; [now apply H|]. apply elem_of_list_singleton in I as ->. exact N. Qed.

  Lemma sstep_recs m rs e : recs_ok rs -> recs_ok (sstep (m, rs) e).2.
  Proof.
    intros H r I. destruct (paths_static _ _ r (sstep_static (m, rs) e) I) as (r' & I' & E & _). rewrite <- E. now apply H.
  Qed.

  (** The recorders after a step of the tool. *)
  Lemma tool_recs m rs t a m' rs' t' : tool_step fin m rs t a = (m', rs', t') -> tool_ok t ->
    (rs' = rs /\ m' = m) \/ (exists c b, rs' = rs ++ [Rec c b (SMkdir 0)] /\ m' = m /\ exists k tt, c = Consolidate.corpus_of td id k tt) \/
    (rs' = rs /\ exists d ds p, t = TRm d ds /\ t' = t /\ under d p /\ m' = delete p m).
  Proof.
    intros E Ok. destruct t as [[|[c d] todo]|c d seen todo|c d n seen todo|i c d n seen todo|[|d ds]|d ds|r], a as [|n'| | |p]; cbn [tool_step] in E;
      try (left; now inversion E).
    - destruct (existsb _ seen); left; now inversion E.
    - destruct (m !! (d ++ [n])) as [[b|]|]; [|left; now inversion E..].
      right; left. exists c, b. split; [now inversion E|]. split; [now inversion E|]. destruct Ok as [Ok _]. now apply (job_parts c d n) in Ok as [? _].
    - destruct (rs !! i) as [r|]; [|left; now inversion E]. destruct (r_st r); left; now inversion E.
    - destruct (is_prefix d p) eqn:P; [|left; now inversion E]. apply is_prefix_spec in P. right; right. split; [now inversion E|].
      exists d, ds, p. split; [reflexivity|]. split; [now inversion E|]. split; [exact P|now inversion E].
  Qed.

  Lemma tool_ok_step m rs t a : tool_ok t -> tool_ok (tool_step fin m rs t a).2.
  Proof.
    intros Ok. destruct t as [[|[c d] todo]|c d seen todo|c d n seen todo|i c d n seen todo|[|d ds]|d ds|r], a as [|n'| | |p]; cbn [tool_step snd]; try exact Ok; try exact I.
    - destruct fin as [ds|e|] eqn:F; cbn [tool_ok]; try exact I. exists ds. split; [exact F|apply incl_refl].
    - inversion Ok as [|? ? J1 J2]; subst. destruct (is_dir m d); cbn [tool_ok]; auto.
    - destruct (existsb _ seen); cbn [snd]; [exact Ok|]. destruct (Consolidate.skipped n'); cbn [tool_ok]; exact Ok.
    - destruct Ok as [_ Ok]. exact Ok.
    - destruct (m !! (d ++ [n])) as [[b|]|]; cbn [snd tool_ok]; auto.
    - destruct (rs !! i) as [r|]; cbn [snd]; [|exact Ok]. destruct (r_st r); cbn [snd tool_ok]; auto; exact Ok.
    - destruct Ok as (ds0 & F & In0). destruct (exists_ m d); cbn [tool_ok]; exists ds0; split; auto. intros x I. apply In0. now right.
    - destruct Ok as (ds0 & F & In0). destruct (exists_ m d); cbn [tool_ok]; exists ds0; split; auto. intros x I. apply In0. now right.
    - destruct (is_prefix d p); exact Ok.
  Qed.

  Lemma start_ok : tool_ok (tool_start td id o ets).
  Proof.
    unfold tool_start. destruct (consolidation td id o ets) as [todo|e|] eqn:E; cbn [tool_ok]; try exact I.
    apply List.Forall_forall. apply (proj1 (consolidation_jobs todo E)).
  Qed.


  Lemma rm_zone d ds : tool_ok (TRm d ds) -> under zone d.
  Proof.
    intros (ds0 & F & Inc). destruct (fin_zone ds0 d F (Inc d (or_introl eq_refl))) as (k & t & _ & ->).
    apply (Consolidate.output_in_zone td id k t). exists []. now rewrite app_nil_r.
  Qed.


  (** The tool will copy [b] from [d ++ [n]] to [c]. *)
  Definition pending (c d : path) (n : str) (b : bytes) (rs : list recorder) (t : tool) : Prop :=
    match t with
    | TDir todo => In (c, d) todo
    | TList c' d' seen todo | TRead c' d' _ seen todo => In (c, d) todo \/ (c', d') = (c, d) /\ ~ In n seen
    | TWait i c' d' n' seen todo =>
        In (c, d) todo \/ (c', d') = (c, d) /\ ~ In n seen /\ (n' = n -> exists r, rs !! i = Some r /\ r_dir r = c /\ r_data r = b)
    | TReset _ | TRm _ _ | TEnd (Ret _) => False
    | TEnd _ => True
    end.

  Lemma pending_env c d n b rs rs' t : pending c d n b rs t ->
    (forall i r, rs !! i = Some r -> exists r', rs' !! i = Some r' /\ r_dir r' = r_dir r /\ r_data r' = r_data r) -> pending c d n b rs' t.
  Proof.
    intros H L. destruct t as [todo|c' d' seen todo|c' d' n' seen todo|i c' d' n' seen todo|ds|d' ds|[u|e|]]; cbn [pending] in *; try tauto.
    destruct H as [H|(H1 & H2 & H3)]; [now left|right]. split; [exact H1|]. split; [exact H2|]. intros En.
    destruct (H3 En) as (r & Lr & E1 & E2). destruct (L i r Lr) as (r' & Lr' & E3 & E4). exists r'. split; [exact Lr'|]. split; congruence.
  Qed.

  Lemma pending_step c d n b m rs t a : Consolidate.skipped n = false -> m !! (d ++ [n]) = Some (File b) ->
    (a = AEnd -> match t with TList _ d' seen _ => d' = d -> In n seen | _ => True end) ->
    pending c d n b rs t -> let '(_, rs', t') := tool_step fin m rs t a in recorded c b rs' \/ pending c d n b rs' t'.
  Proof.
    intros Sk L Ho H.
    destruct t as [[|[c1 d1] todo]|c1 d1 seen todo|c1 d1 n1 seen todo|i c1 d1 n1 seen todo|[|d1 ds]|d1 ds|r], a as [|n'| | |p]; cbn [tool_step];
      try (right; exact H); cbn [pending] in H.
    - destruct H.
    - right. destruct (is_dir m d1); cbn [pending]; [|exact I]. destruct H as [H|H]; [right; auto|now left].
    - right. exact I.
    - destruct (existsb (str_eqb n') seen) eqn:Ex; [right; exact H|]. right.
      destruct (Consolidate.skipped n') eqn:Sk'; cbn [pending]; [|exact H].
      destruct H as [H|[H1 H2]]; [now left|right]. split; [exact H1|]. intros [->|I]; [congruence|contradiction].
    - right. cbn [pending]. destruct H as [H|[H1 H2]]; [exact H|]. exfalso. apply H2. apply (Ho eq_refl). congruence.
    - right. exact I.
    - destruct (m !! (d1 ++ [n1])) as [[b1|]|] eqn:L1; cbn [pending]; [|right; exact I..].
      right. destruct H as [H|[H1 H2]]; [now left|right]. split; [exact H1|]. split; [exact H2|]. intros ->. assert (c1 = c /\ d1 = d) as [-> ->] by (split; congruence).
      exists (Rec c b1 (SMkdir 0)). split; [apply list_lookup_middle; reflexivity|]. split; [reflexivity|]. cbn [r_data]. congruence.
    - right. exact I.
    - destruct (rs !! i) as [r|] eqn:Lr; [|right; cbn [pending]; now rewrite Lr]. destruct (r_st r) eqn:St; try (right; cbn [pending]; now rewrite Lr); cbn [pending]; [|right; exact I].
      destruct H as [H|(H1 & H2 & H3)]; [right; now left|]. destruct (decide (n1 = n)) as [->|N]; [|right; right; split; [exact H1|]; intros [->|I]; contradiction].
      left. destruct (H3 eq_refl) as (r' & L' & E1 & E2). assert (r' = r) as -> by congruence. exists r. split; [apply elem_of_list_lookup; eauto|auto].
    - destruct (exists_ m d1); destruct H.
    - destruct (exists_ m d1); destruct H.
    - destruct H.
    - destruct (is_prefix d1 p); destruct H.
  Qed.

  Lemma start_pending c d n b : consolidates o -> job (c, d) -> pending c d n b [] (tool_start td id o ets).
  Proof.
    intros C J. unfold tool_start. destruct (consolidation td id o ets) as [todo|e|] eqn:E; cbn [pending]; [|exact I..].
    now apply (proj2 (consolidation_jobs todo E) C).
  Qed.
End Tool.

(** The same corpus belongs to the same output. *)
Lemma same_target td id id' k k' t t' q : under (Consolidate.output_of td id' k' t') (Consolidate.output_of td id k t ++ q) ->
  Consolidate.output_of td id' k' t' = Consolidate.output_of td id k t /\ Consolidate.corpus_of td id' k' t' = Consolidate.corpus_of td id k t.
Proof.
  intros [r E]. unfold Consolidate.output_of, Consolidate.corpus_of in *. rewrite <- !app_assoc in E. apply app_inv_head in E. cbn [app] in E.
  assert (E1 : path_segment id (kind_name Output) = path_segment id' (kind_name Output)) by exact (f_equal (hd []) E).
  assert (E2 : path_from_target k t = path_from_target k' t') by exact (f_equal (fun l => hd [] (tl l)) E).
  apply path_segment_inj in E1 as [-> _]. rewrite E2. auto.
Qed.

Section Sys.
  Variables (td : path) (K : path -> Prop).
  Let zone := Consolidate.zone td.

  (** Files outside of the fuzzers' directories change by recorders only. *)
  Lemma fuzz_frame m m' rs ts p b : honest td K (m, rs, ts) (EFuzz m') -> ~ under zone p -> m !! p = Some (File b) -> m' !! p = Some (File b).
  Proof.
    intros H N L. destruct (H p) as [_ [E|(i & k & tt & d & D & [U|(_ & M & _)])]]; [congruence| |congruence].
    exfalso. apply N. eapply Consolidate.output_zone; eauto.
  Qed.

  Lemma recorded_zone i k tn d b : k <> Output -> dir_from_args_type td i k tn = Ret d -> ~ under zone (r_path (Rec d b (SMkdir 0))).
  Proof.
    intros N D U. destruct (Consolidate.recorded_dir td i k tn d N D) as (s & ->).
    destruct (Consolidate.zone_apart td i k s _ (corpus_name b) U) as [_ Q]. now apply Q.
  Qed.

  Lemma inv_spawn m rs r : inv (m, rs) -> apart (rs ++ [r]) -> r_st r = SMkdir 0 -> inv (m, rs ++ [r]).
  Proof.
    intros (N & W & F) A St. split; [exact A|]. split; cbn [fst snd] in *.
    - intros q off I E. apply elem_of_app in I as [I|I]; [now apply W|]. apply elem_of_list_singleton in I as ->. congruence.
    - intros q I O. apply elem_of_app in I as [I|I].
      + destruct (F q I O) as (b & Lb & Len & Z & P). exists b. split; [exact Lb|]. split; [exact Len|]. split; [exact Z|].
        intros i Hi. destruct (P i Hi) as [E|(w & Iw & R)]; [now left|]. right. exists w. split; [apply elem_of_app; now left|exact R].
      + apply elem_of_list_singleton in I as ->. destruct O as [[off O]|O]; congruence.
  Qed.

  Lemma inv_other m m' rs : inv (m, rs) -> (forall r b, r ∈ rs -> m !! r_path r = Some (File b) -> m' !! r_path r = Some (File b)) -> inv (m', rs).
  Proof.
    intros (N & W & F) H. split; [exact N|]. split; [exact W|]. cbn [fst snd] in *. intros q I O.
    destruct (F q I O) as (b & Lb & R). exists b. split; [now apply H|exact R].
  Qed.

  Lemma delete_frame m p q (n : option node) d : under d p -> under zone d -> ~ under zone q -> delete p m !! q = (m : fs) !! q.
  Proof.
    intros [a ->] [c ->] N. apply lookup_delete_ne. intros <-. apply N. exists (c ++ a). now rewrite app_assoc.
  Qed.

  (** The invariant of all runs. *)
  Definition cinv (s : csys) : Prop :=
    let '(m, rs, ts) := s in
    (forall c t, (c, t) ∈ ts -> tool_ok td (c_id c) (c_opts c) (c_ets c) t) /\ recs_ok td rs /\ (apart rs -> inv (m, rs)).

  Lemma apart_prefix rs r : apart (rs ++ [r]) -> apart rs.
  Proof. intros A p q Ip Iq. apply A; apply elem_of_app; now left. Qed.

  Lemma apart_sstep m rs e : apart (sstep (m, rs) e).2 -> apart rs.
  Proof.
    intros A p q Ip Iq E. pose proof (sstep_static (m, rs) e) as St. cbn [snd] in St.
    assert (H : forall r, r ∈ rs -> exists r', r' ∈ (sstep (m, rs) e).2 /\ r_data r' = r_data r).
    { intros r I. assert (J : (r_dir r, r_data r) ∈ map (fun r => (r_dir r, r_data r)) rs) by (apply elem_of_list_fmap; eauto).
      rewrite <- St in J. apply elem_of_list_fmap in J as (r' & E' & J). exists r'. split; [exact J|congruence]. }
    destruct (H p Ip) as (p' & Ip' & Ep), (H q Iq) as (q' & Iq' & Eq). rewrite <- Ep, <- Eq. apply A; auto. congruence.
  Qed.

  Lemma tools_step (P : call -> tool -> Prop) (ts : list (call * tool)) j c t t' : ts !! j = Some (c, t) -> (forall c t, (c, t) ∈ ts -> P c t) -> P c t' ->
    forall c1 t1, (c1, t1) ∈ <[j := (c, t')]> ts -> P c1 t1.
  Proof.
    intros L H H' c1 t1 I. apply elem_of_list_lookup in I as (i & I). apply list_lookup_insert_Some in I as [(-> & E & _)|[_ I]]; [congruence|].
    apply H. apply elem_of_list_lookup. eauto.
  Qed.

  Lemma cinv_step s e : cinv s -> honest td K s e -> cinv (cstep td s e).
  Proof.
    destruct s as [[m rs] ts]. intros (T & R & V) H. destruct e as [j a|d x|i a|m']; cbn [cstep].
    - destruct (ts !! j) as [[c t]|] eqn:Lj; [|split; [exact T|auto]]. assert (Tj : tool_ok td (c_id c) (c_opts c) (c_ets c) t) by (apply T, elem_of_list_lookup; eauto).
      destruct (tool_step _ m rs t a) as [[m' rs'] t'] eqn:E. pose proof (tool_ok_step td _ _ _ m rs t a Tj) as T'. rewrite E in T'. cbn [snd] in T'.
      assert (T2 : forall c1 t1, (c1, t1) ∈ <[j := (c, t')]> ts -> tool_ok td (c_id c1) (c_opts c1) (c_ets c1) t1) by (eapply (tools_step (fun c t => tool_ok td (c_id c) (c_opts c) (c_ets c) t)); eauto).
      destruct (tool_recs td _ _ _ _ _ _ _ _ _ _ E Tj) as [[-> ->]|[(c1 & b & -> & -> & k & tg & ->)|(-> & d & ds & p & -> & _ & U & ->)]].
      + split; [exact T2|auto].
      + split; [exact T2|]. split; [apply recs_app; [exact R|apply corpus_rec]|]. intros A. apply inv_spawn; [|exact A|reflexivity].
        apply V. eapply apart_prefix. exact A.
      + split; [exact T2|]. split; [exact R|]. intros A. apply (inv_other m); [now apply V|]. intros r b I L.
        rewrite (delete_frame m p (r_path r) None d U (rm_zone td _ _ _ d ds Tj) (R r I)). exact L.
    - split; [exact T|]. destruct H as (i & k & tn & N & D). split; [apply recs_app; [exact R|eapply recorded_zone; eauto]|].
      intros A. apply inv_spawn; [|exact A|reflexivity]. apply V. eapply apart_prefix. exact A.
    - pose proof (sstep_recs td m rs (i, a) R) as R'. pose proof (apart_sstep m rs (i, a)) as A'. pose proof (inv_step (m, rs) (i, a)) as V'.
      destruct (sstep (m, rs) (i, a)) as [m' rs']. cbn [fst snd] in *. split; [exact T|]. split; [exact R'|]. intros A. apply V'. apply V. now apply A'.
    - split; [exact T|]. split; [exact R|]. intros A. apply (inv_other m); [now apply V|]. intros r b I L.
      eapply fuzz_frame; [exact H|now apply R|exact L].
  Qed.

  Lemma cinv_start m0 calls : cinv (cstart td m0 calls).
  Proof.
    split; [|split; [intros r I; now apply elem_of_nil in I|]].
    - intros c t I. apply elem_of_list_fmap in I as (c' & E & _). assert (c' = c /\ t = tool_start td (c_id c) (c_opts c) (c_ets c)) as [-> ->] by (split; congruence). apply start_ok.
    - intros A. split; [exact A|]. split; cbn; intros r; intros; exfalso; eapply (not_elem_of_nil r); eassumption.
  Qed.

  (** What holds of a step that respects [cinv] holds of all runs. *)
  Lemma runs_ind (P : csys -> Prop) :
    (forall s e, cinv s -> P s -> honest td K s e -> P (cstep td s e)) ->
    forall es s, cinv s -> P s -> honest_run td K s es -> cinv (crun td s es) /\ P (crun td s es).
  Proof.
    intros St. induction es as [|e es IH]; intros s C H0 H; [auto|]. cbn [honest_run] in H. destruct H as [H1 H2].
    change (crun td s (e :: es)) with (crun td (cstep td s e) es). apply IH; [now apply cinv_step|now apply St|exact H2].
  Qed.

  (** ** A finding that the fuzzers leave alone *)

  Lemma recorded_app c b rs r : recorded c b rs -> recorded c b (rs ++ [r]).
  Proof. intros (q & I & H). exists q. split; [apply elem_of_app; now left|exact H]. Qed.

  Lemma rstep_done m r a : r_st r = SDone -> rstep m r a = (m, r).
  Proof. intros E. unfold rstep. rewrite E. now destruct a. Qed.

  Lemma recorded_sstep c b m rs e : recorded c b rs -> recorded c b (sstep (m, rs) e).2.
  Proof.
    intros (q & I & E1 & E2 & St). destruct e as [i a]. unfold sstep. cbn [fst snd]. destruct (rs !! i) as [r|] eqn:L; [|exists q; auto].
    destruct (rstep m r a) as [m' r'] eqn:E. cbn [snd].
    destruct (elem_update_old rs i r r' q L I) as [->|I']; [|exists q; auto].
    rewrite (rstep_done m r a St) in E. injection E as <- <-. exists r. split; [eapply elem_update_new; eauto|auto].
  Qed.

  Lemma sstep_lookup m rs e i r : rs !! i = Some r -> exists r', (sstep (m, rs) e).2 !! i = Some r' /\ r_dir r' = r_dir r /\ r_data r' = r_data r.
  Proof.
    intros L. pose proof (f_equal (fun l => l !! i) (sstep_static (m, rs) e)) as St. cbn beta in St. cbn [snd] in St.
    rewrite !list_lookup_fmap, L in St. destruct ((sstep (m, rs) e).2 !! i) as [r'|]; [|discriminate St]. exists r'. cbn in St. split; [reflexivity|split; congruence].
  Qed.

  (** It is where it was or recorded; and every invocation that would remove it will copy it, or it is
      recorded. *)
  Definition holds (c d : path) (n : str) (b : bytes) (s : csys) : Prop :=
    let '(m, rs, ts) := s in
    (m !! (d ++ [n]) = Some (File b) \/ recorded c b rs) /\
    forall cl t, (cl, t) ∈ ts -> removes td cl (d ++ [n]) -> recorded c b rs \/ pending c d n b rs t.

  Lemma holds_env c d n b m m' rs rs' ts : holds c d n b (m, rs, ts) ->
    (m !! (d ++ [n]) = Some (File b) -> m' !! (d ++ [n]) = Some (File b)) -> (recorded c b rs -> recorded c b rs') ->
    (forall i r, rs !! i = Some r -> exists r', rs' !! i = Some r' /\ r_dir r' = r_dir r /\ r_data r' = r_data r) ->
    holds c d n b (m', rs', ts).
  Proof.
    intros [H1 H2] M R L. split; [tauto|]. intros cl t I Rm. destruct (H2 cl t I Rm) as [H|H]; [left; auto|right; eapply pending_env; eauto].
  Qed.

  Lemma app_lookup (rs : list recorder) r' i r : rs !! i = Some r -> exists q, (rs ++ [r']) !! i = Some q /\ r_dir q = r_dir r /\ r_data q = r_data r.
  Proof. intros L. exists r. split; [now apply lookup_app_l_Some|auto]. Qed.

  Lemma holds_step c d n b s e : under zone (d ++ [n]) -> Consolidate.skipped n = false -> K (d ++ [n]) -> cinv s -> holds c d n b s -> honest td K s e ->
    holds c d n b (cstep td s e).
  Proof.
    destruct s as [[m rs] ts]. intros U Sk HK (T & R & _) H Ho. destruct e as [j a|d' x|i a|m']; cbn [cstep].
    - destruct (ts !! j) as [[cl t]|] eqn:Lj; [|exact H]. assert (Ij : (cl, t) ∈ ts) by (apply elem_of_list_lookup; eauto).
      pose proof (T cl t Ij) as Tj. pose proof (pending_step td (c_id cl) (c_opts cl) (c_ets cl) c d n b m rs t a Sk) as Ps.
      assert (Hr : recorded c b rs -> forall rs' : list recorder, (rs' = rs \/ exists r, rs' = rs ++ [r]) -> recorded c b rs').
      { intros Re rs' [->|(r & ->)]; [exact Re|now apply recorded_app]. }
      destruct (tool_step _ m rs t a) as [[m' rs'] t'] eqn:E. destruct H as [H1 H2].
      pose proof (tool_recs td _ _ _ _ _ _ _ _ _ _ E Tj) as Tr.
      assert (Sh : rs' = rs \/ exists r, rs' = rs ++ [r]) by (destruct Tr as [[-> _]|[(c1 & b1 & -> & _)|(-> & _)]]; eauto).
      assert (Lk : forall i r, rs !! i = Some r -> exists q, rs' !! i = Some q /\ r_dir q = r_dir r /\ r_data q = r_data r).
      { intros i r L. destruct Sh as [->|(r' & ->)]; [eauto|now apply app_lookup]. }
      assert (H1' : m' !! (d ++ [n]) = Some (File b) \/ recorded c b rs').
      { destruct H1 as [H1|H1]; [|right; now apply Hr]. destruct Tr as [[_ ->]|[(c1 & b1 & _ & -> & _)|(-> & d1 & ds & p & -> & _ & Up & ->)]]; [now left..|].
        destruct (decide (p = d ++ [n])) as [->|Np]; [|left; now rewrite lookup_delete_ne by congruence]. right.
        destruct Tj as (ds0 & F & Inc). destruct (fin_zone td _ _ _ ds0 d1 F (Inc d1 (or_introl eq_refl))) as (k & tg & Sel & ->).
        destruct (H2 cl _ Ij) as [?|[]]; [|assumption]. exists k, tg, (Consolidate.output_of td (c_id cl) k tg). split; [exact Sel|]. split; [apply Consolidate.output_of_eq|exact Up]. }
      split; [exact H1'|]. apply (tools_step (fun cl t => removes td cl (d ++ [n]) -> recorded c b rs' \/ pending c d n b rs' t) ts j cl t t' Lj).
      + intros cl1 t1 I1 Rm. destruct (H2 cl1 t1 I1 Rm) as [H|H]; [left; now apply Hr|right; eapply pending_env; eauto].
      + intros Rm. destruct (H2 cl t Ij Rm) as [H|H]; [left; now apply Hr|]. destruct H1 as [H1|H1]; [|left; now apply Hr].
        apply Ps; [exact H1| |exact H]. intros ->. destruct t as [todo|c' d'' seen todo| | | | |]; auto. intros ->.
        cbn [honest] in Ho. rewrite Lj in Ho. apply Ho; [exact HK|congruence].
    - apply (holds_env c d n b m m rs); [exact H|auto|apply recorded_app|]. intros i r L. now apply app_lookup.
    - pose proof (recorded_sstep c b m rs (i, a)) as R1. pose proof (sstep_lookup m rs (i, a)) as R2.
      pose proof (fun L N => sstep_frame (m, rs) (i, a) (d ++ [n]) (File b) L N) as R3.
      destruct (sstep (m, rs) (i, a)) as [m' rs']. cbn [fst snd] in *. apply (holds_env c d n b m m' rs rs'); auto.
      intros L. apply R3; [exact L|]. intros r I E. apply (R r I). now rewrite <- E.
    - apply (holds_env c d n b m m' rs rs); auto; [|eauto]. destruct (Ho (d ++ [n])) as [Hk _]. rewrite (Hk HK). auto.
  Qed.

  Lemma holds_start calls m0 id k t sub n b : In sub [lit "crashes"; lit "hangs"; lit "queue"] ->
    let c := Consolidate.corpus_of td id k t in let d := Consolidate.output_of td id k t ++ [lit "default"; sub] in
    m0 !! (d ++ [n]) = Some (File b) -> (forall cl, In cl calls -> removes td cl (d ++ [n]) -> consolidates (c_opts cl)) ->
    holds c d n b (cstart td m0 calls).
  Proof.
    intros Is c d L Hc. split; [now left|]. intros cl tl I Rm. right. apply elem_of_list_fmap in I as (cl' & E & I). apply elem_of_list_In in I.
    assert (cl' = cl /\ tl = tool_start td (c_id cl) (c_opts cl) (c_ets cl)) as [-> ->] by (split; congruence).
    apply start_pending; [now apply Hc|]. destruct Rm as (k' & t' & d' & Sel & D & Up). rewrite Consolidate.output_of_eq in D. apply ret_inj in D. subst d'.
    unfold d in Up. rewrite <- app_assoc in Up. destruct (same_target _ _ _ _ _ _ _ _ Up) as [E1 E2]. exists k', t', sub. split; [exact Sel|]. split; [exact Is|]. unfold c, d. congruence.
  Qed.

  (** ** A file of a corpus *)

  (** A file outside of the fuzzers' directories: it is as it was, or a recorder of it has begun to write. *)
  Definition touched (p : path) (rs : list recorder) : Prop := exists r, r ∈ rs /\ r_path r = p /\ (opened r \/ dead r).

  Lemma touched_step m rs e p b : (m !! p = Some (File b) \/ touched p rs) ->
    ((sstep (m, rs) e).1 !! p = Some (File b) \/ touched p (sstep (m, rs) e).2).
  Proof.
    destruct e as [i a]. unfold sstep. cbn [fst snd]. destruct (rs !! i) as [r|] eqn:L; [|auto].
    destruct (rstep m r a) as [m' r'] eqn:E. cbn [fst snd].
    assert (Rp : r_path r' = r_path r /\ (opened r \/ dead r -> opened r' \/ dead r') /\
                 (opened r' \/ dead r' \/ r_path r <> p \/ m' !! p = m !! p \/ m !! p = None \/ m' !! p = Some (File b) \/ m !! p = Some Dir)).
    { unfold rstep in E. unfold opened, dead.
      destruct a as [n| |], (r_st r) as [k| |off| | |] eqn:Str; try (assert (m' = m /\ r' = r) as [-> ->] by (split; congruence); rewrite Str; split; [reflexivity|]; split; [tauto|]; tauto).
      - assert (N : ~ ((exists off, SMkdir k = SWrite off) \/ SMkdir k = SDone \/ (SMkdir k = SFailed \/ SMkdir k = SKilled))).
        { intros [[? K1]|[K1|[K1|K1]]]; discriminate. }
        destruct (List.length (r_dir r) <=? k); [assert (m' = m /\ r' = at_st r SOpen) as [-> ->] by (split; congruence); split; [reflexivity|]; split; tauto|].
        destruct (m !! firstn (S k) (r_dir r)) as [[b'|]|] eqn:M.
        + assert (m' = m /\ r' = at_st r SOpen) as [-> ->] by (split; congruence). split; [reflexivity|]. split; tauto.
        + assert (m' = m /\ r' = at_st r (SMkdir (S k))) as [-> ->] by (split; congruence). split; [reflexivity|]. split; tauto.
        + assert (m' = <[firstn (S k) (r_dir r) := Dir]> m /\ r' = at_st r (SMkdir (S k))) as [-> ->] by (split; congruence).
          split; [reflexivity|]. split; [tauto|]. destruct (decide (p = firstn (S k) (r_dir r))) as [->|Ne]; [rewrite M; tauto|].
          rewrite lookup_insert_ne by congruence. tauto.
      - destruct (fs_write m (r_path r) []) as [m2|] eqn:W.
        + assert (r' = at_st r (SWrite 0)) as -> by congruence. split; [reflexivity|]. cbn [r_st at_st]. split; [intros _; left; left; eauto|]. left. left. eauto.
        + assert (r' = at_st r SFailed) as -> by congruence. split; [reflexivity|]. cbn [r_st at_st]. tauto.
      - destruct (List.length (r_data r) <=? off).
        + assert (r' = at_st r SDone) as -> by congruence. split; [reflexivity|]. cbn [r_st at_st]. tauto.
        + destruct (m !! r_path r) as [[b'|]|].
          * match type of E with (_, at_st _ ?q) = _ => assert (r' = at_st r q) as -> by congruence end. split; [reflexivity|]. cbn [r_st at_st].
            split; [intros _; left; left; eauto|]. left. left. eauto.
          * assert (r' = at_st r SFailed) as -> by congruence. split; [reflexivity|]. cbn [r_st at_st]. tauto.
          * assert (r' = at_st r SFailed) as -> by congruence. split; [reflexivity|]. cbn [r_st at_st]. tauto.
      - assert (m' = m /\ r' = at_st r SOpen) as [-> ->] by (split; congruence). split; [reflexivity|]. cbn [r_st at_st]. split; [|tauto].
        intros [[[? K1]|K1]|[K1|K1]]; discriminate.
      - assert (r' = at_st r SFailed) as -> by congruence. split; [reflexivity|]. cbn [r_st at_st]. tauto.
      - assert (r' = at_st r SFailed) as -> by congruence. split; [reflexivity|]. cbn [r_st at_st]. tauto.
      - assert (r' = at_st r SKilled) as -> by congruence. split; [reflexivity|]. cbn [r_st at_st]. tauto.
      - assert (r' = at_st r SKilled) as -> by congruence. split; [reflexivity|]. cbn [r_st at_st]. tauto.
      - assert (r' = at_st r SKilled) as -> by congruence. split; [reflexivity|]. cbn [r_st at_st]. tauto. }
    destruct Rp as (Rp & Op & Ch).
    assert (New : r' ∈ <[i := r']> rs) by (eapply elem_update_new; eauto).
    intros [H|(q & Iq & Eq & Hq)].
    - destruct (decide (r_path r = p)) as [Ep|Np].
      + destruct Ch as [C|[C|[C|[C|[C|[C|C]]]]]]; try congruence; [right; exists r'; split; [exact New|]; split; [congruence|auto]|right; exists r'; split; [exact New|]; split; [congruence|auto]|left; congruence|left; congruence].
      + left. pose proof (sstep_frame (m, [r]) (0, a) p (File b) H) as Fr. unfold sstep in Fr. cbn [fst snd lookup list_lookup] in Fr. rewrite E in Fr. cbn [fst] in Fr.
        apply Fr. intros x Ix. apply elem_of_list_singleton in Ix as ->. congruence.
    - right. destruct (elem_update_old rs i r r' q L Iq) as [->|Iq']; [exists r'; split; [exact New|]; split; [congruence|now apply Op]|exists q; auto].
  Qed.

  Definition kept (p : path) (b : bytes) (s : csys) : Prop := let '(m, rs, _) := s in m !! p = Some (File b) \/ touched p rs.

  Lemma touched_app p rs r : touched p rs -> touched p (rs ++ [r]).
  Proof. intros (q & I & H). exists q. split; [apply elem_of_app; now left|exact H]. Qed.

  Lemma kept_step p b s e : ~ under zone p -> cinv s -> kept p b s -> honest td K s e -> kept p b (cstep td s e).
  Proof.
    destruct s as [[m rs] ts]. intros U (T & R & _) H Ho. cbn [kept] in H. destruct e as [j a|d x|i a|m']; cbn [cstep].
    - destruct (ts !! j) as [[cl t]|] eqn:Lj; [|exact H]. assert (Ij : (cl, t) ∈ ts) by (apply elem_of_list_lookup; eauto). pose proof (T cl t Ij) as Tj.
      destruct (tool_step _ m rs t a) as [[m' rs'] t'] eqn:E. cbn [kept].
      destruct (tool_recs td _ _ _ _ _ _ _ _ _ _ E Tj) as [[-> ->]|[(c & b' & -> & -> & _)|(-> & d & ds & q & -> & _ & Uq & ->)]]; [exact H|destruct H; auto using touched_app|].
      rewrite (delete_frame m q p None d Uq (rm_zone td _ _ _ d ds Tj) U). exact H.
    - cbn [kept]. destruct H; auto using touched_app.
    - pose proof (touched_step m rs (i, a) p b H) as H'. destruct (sstep (m, rs) (i, a)) as [m' rs']. exact H'.
    - cbn [kept]. destruct H as [H|H]; [left; eapply fuzz_frame; eauto|now right].
  Qed.
End Sys.

(** ** The tool alone *)

(** Nothing but the tool does anything. *)
Definition quiet (e : cevent) : Prop := match e with ETool _ _ | ERec _ _ => True | _ => False end.

Definition finished (h : list (path * bytes)) : list recorder := map (fun e => Rec e.1 e.2 SDone) h.

Section Alone.
  Variables (s : Consolidate.io) (td : path) (cl : call).
  Hypothesis Hs : Consolidate.io_ok s.
  Let id := c_id cl.
  Let fin := resetting td (c_id cl) (c_opts cl) (c_ets cl).

  Definition alone (a : fs * list recorder * tool) : csys := let '(m, rs, t) := a in (m, rs, [(cl, t)]).

  Definition reach (a b : fs * list recorder * tool) : Prop :=
    exists es, Forall quiet es /\ honest_run td (fun _ => True) (alone a) es /\ crun td (alone a) es = alone b.

  Lemma reach_refl a : reach a a.
  Proof. exists []. split; [constructor|]. split; [exact I|reflexivity]. Qed.

  Lemma reach_step a e b c : quiet e -> honest td (fun _ => True) (alone a) e -> cstep td (alone a) e = alone b -> reach b c -> reach a c.
  Proof.
    intros Q H E (es & Qs & Hs' & R). exists (e :: es). split; [now constructor|]. split; [split; [exact H|now rewrite E]|].
    change (crun td (alone a) (e :: es)) with (crun td (cstep td (alone a) e) es). now rewrite E.
  Qed.

  (** A step of the tool. *)
  Lemma tool_step' m rs t an b c :
    match an, t with AEnd, TList _ d seen _ => forall n, m !! (d ++ [n]) <> None -> In n seen | _, _ => True end ->
    tool_step fin m rs t an = b -> reach b c -> reach (m, rs, t) c.
  Proof.
    intros H E R. apply (reach_step _ (ETool 0 an) b); [exact I| | |exact R].
    - cbn. destruct an; auto. destruct t; auto.
    - cbn [cstep alone lookup list_lookup]. fold fin. rewrite E. destruct b as [[m' rs'] t']. reflexivity.
  Qed.

  (** The recorder of the tool, alone. *)
  Lemma rec_step m rs r n m' r' t c : rstep m r (Go n) = (m', r') -> reach (m', rs ++ [r'], t) c -> reach (m, rs ++ [r], t) c.
  Proof.
    intros E R. apply (reach_step _ (ERec (List.length rs) (Go n)) (m', rs ++ [r'], t)); [exact I|exact I| |exact R].
    cbn [cstep alone]. unfold sstep. cbn [fst snd]. rewrite list_lookup_middle by reflexivity. rewrite E.
    now rewrite insert_app_r_alt, Nat.sub_diag by lia.
  Qed.

  Lemma mkdirs_steps dir b rs t : forall rest pre m c, dir = pre ++ rest ->
    reach ((mkdirs m pre rest).1, rs ++ [Rec dir b SOpen], t) c -> reach (m, rs ++ [Rec dir b (SMkdir (List.length pre))], t) c.
  Proof.
    induction rest as [|x rest IH]; intros pre m c E R; cbn [mkdirs] in R.
    - eapply (rec_step _ _ _ 0); [|exact R]. cbn. rewrite E, app_nil_r, Nat.leb_refl. reflexivity.
    - assert (Lt : List.length dir <=? List.length pre = false) by (apply Nat.leb_gt; rewrite E, app_length; cbn; lia).
      assert (Fn : firstn (S (List.length pre)) dir = pre ++ [x]).
      { rewrite E. change (x :: rest) with ([x] ++ rest). rewrite app_assoc. replace (S (List.length pre)) with (List.length (pre ++ [x])) by (rewrite app_length; cbn; lia).
        now rewrite firstn_app, firstn_all, Nat.sub_diag, firstn_O, app_nil_r. }
      assert (Ln : S (List.length pre) = List.length (pre ++ [x])) by (rewrite app_length; cbn; lia).
      assert (E' : dir = (pre ++ [x]) ++ rest) by (rewrite <- app_assoc; exact E).
      destruct (m !! (pre ++ [x])) as [[y|]|] eqn:M; cbn [fst] in R.
      + eapply (rec_step _ _ _ 0); [|exact R]. unfold rstep. cbn [r_st r_dir]. rewrite Lt, Fn, M. reflexivity.
      + eapply (rec_step _ _ _ 0); [unfold rstep; cbn [r_st r_dir]; rewrite Lt, Fn, M; reflexivity|].
        unfold at_st. cbn [r_dir r_data]. rewrite Ln. now apply IH.
      + eapply (rec_step _ _ _ 0); [unfold rstep; cbn [r_st r_dir]; rewrite Lt, Fn, M; reflexivity|].
        unfold at_st. cbn [r_dir r_data]. rewrite Ln. now apply IH.
  Qed.

  Lemma write_steps m rs dir b m' t c : write_data m dir b = (m', true) ->
    reach (m', rs ++ [Rec dir b SDone], t) c -> reach (m, rs ++ [Rec dir b (SMkdir 0)], t) c.
  Proof.
    intros W R. apply (mkdirs_steps dir b rs t dir [] m c eq_refl). unfold write_data, create_dir_all in W. set (m1 := (mkdirs m [] dir).1) in *.
    destruct (fs_write m1 (dir ++ [corpus_name b]) b) as [m2|] eqn:F; [|discriminate W]. assert (m2 = m') as -> by congruence.
    assert (F0 : fs_write m1 (dir ++ [corpus_name b]) [] = Some (<[dir ++ [corpus_name b] := File []]> m1) /\ m' = <[dir ++ [corpus_name b] := File b]> m1).
    { unfold fs_write in *. destruct (is_dir m1 _); [|discriminate F]. destruct (dir ++ [corpus_name b]) as [|y l]; [discriminate F|].
      destruct (m1 !! (y :: l)) as [[z|]|]; try discriminate F; split; congruence. }
    destruct F0 as [F0 ->].
    eapply (rec_step _ _ _ 0); [unfold rstep; cbn [r_st]; unfold r_path; cbn [r_dir r_data]; rewrite F0; reflexivity|]. unfold at_st. cbn [r_dir r_data].
    destruct b as [|x b]; [eapply (rec_step _ _ _ 0); [reflexivity|exact R]|].
    eapply (rec_step _ _ _ (List.length b)).
    { unfold rstep. cbn [r_st r_data]. unfold r_path. cbn [r_dir r_data]. rewrite lookup_insert. reflexivity. }
    unfold at_st. cbn [r_dir r_data]. rewrite insert_insert, skipn_O.
    assert (firstn (S (List.length b)) (x :: b) = x :: b) as -> by (apply (firstn_all (x :: b))).
    assert (write_at [] 0 (x :: b) = x :: b) as -> by (unfold write_at; cbn; now rewrite app_nil_r).
    eapply (rec_step _ _ _ 0); [unfold rstep; cbn [r_st r_data]; rewrite Nat.leb_refl; reflexivity|]. exact R.
  Qed.

  (** The entries of a directory. *)
  Lemma entries_steps k tg sub todo : let c := Consolidate.corpus_of td id k tg in let d := Consolidate.output_of td id k tg ++ [lit "default"; sub] in
    forall ns m m' h seen rs x, List.NoDup ns -> (forall n, In n ns -> ~ In n seen) -> (forall n, m !! (d ++ [n]) <> None <-> In n ns \/ In n seen) ->
    Consolidate.for_each (Consolidate.cons_entry s c d) (map Some ns) m = (m', h, Ret tt) ->
    reach (m', rs ++ finished h, TDir todo) x -> reach (m, rs, TList c d seen todo) x.
  Proof.
    intros c d. induction ns as [|n ns IH]; intros m m' h seen rs x ND Ns Ls E R; cbn [map Consolidate.for_each] in E.
    - assert (m' = m /\ h = []) as [-> ->] by (split; congruence). cbn [finished map] in R. rewrite app_nil_r in R.
      eapply (tool_step' _ _ _ AEnd); [|reflexivity|exact R]. intros n N. now destruct (proj1 (Ls n) N) as [[]|].
    - inversion ND as [|? ? Nn ND']; subst.
      assert (Ex : existsb (str_eqb n) seen = false).
      { apply not_true_is_false. intros T. apply existsb_exists in T as (y & Iy & Ey). apply (Ns n (or_introl eq_refl)). unfold str_eqb in Ey. destruct (str_dec n y); [now subst|discriminate]. }
      assert (Ns' : forall n', In n' ns -> ~ In n' (n :: seen)) by (intros n' I' [->|I2]; [contradiction|apply (Ns n'); [now right|exact I2]]).
      cbn [Consolidate.cons_entry] in E. destruct (Consolidate.skipped n) eqn:Sk.
      { cbn [Consolidate.seq] in E. destruct (Consolidate.for_each _ (map Some ns) m) as [[m2 h2] o2] eqn:E2. cbn [app] in E.
        eapply (tool_step' _ _ _ (AName n)); [exact I|cbn [tool_step]; rewrite Ex, Sk; reflexivity|].
        apply (IH m m' h (n :: seen) rs x ND' Ns'); [|congruence|exact R]. intros n'. rewrite Ls. cbn [In]. tauto. }
      destruct (Consolidate.i_rd s m (d ++ [n])) as [b|] eqn:Rd; [|discriminate E]. destruct Hs as (_ & Hrd & _). apply Hrd in Rd. unfold fs_read in Rd.
      destruct (m !! (d ++ [n])) as [[b'|]|] eqn:L; try discriminate Rd. assert (b' = b) as -> by congruence.
      destruct (Consolidate.i_wr s m c b); [discriminate E|]. destruct (write_data m c b) as [m1 [|]] eqn:W; [|discriminate E]. cbn [Consolidate.seq] in E.
      destruct (Consolidate.for_each _ (map Some ns) m1) as [[m2 h2] o2] eqn:E2. cbn [app] in E. assert (m2 = m' /\ h = (c, b) :: h2 /\ o2 = Ret tt) as (-> & -> & ->) by (repeat split; congruence).
      eapply (tool_step' _ _ _ (AName n)); [exact I|cbn [tool_step]; rewrite Ex, Sk; reflexivity|].
      eapply (tool_step' _ _ _ AGo); [exact I|cbn [tool_step]; rewrite L; reflexivity|].
      apply (write_steps m rs c b m1 _ x W).
      eapply (tool_step' _ _ _ AGo); [exact I|cbn [tool_step]; rewrite list_lookup_middle by reflexivity; cbn [r_st]; reflexivity|].
      apply (IH m1 m' h2 (n :: seen) (rs ++ [Rec c b SDone]) x ND' Ns'); [|exact E2|].
      + intros n'. replace m1 with (write_data m c b).1 by now rewrite W.
        rewrite Consolidate.write_data_frame, Ls; [cbn [In]; tauto|apply Consolidate.zone_not_prefix|apply Consolidate.corpus_not_zone]; apply Consolidate.sub_in_zone.
      + rewrite <- app_assoc. exact R.
  Qed.

  Lemma dir_steps k tg sub todo m m' h rs x : let c := Consolidate.corpus_of td id k tg in let d := Consolidate.output_of td id k tg ++ [lit "default"; sub] in
    Consolidate.cons_dir s c d m = (m', h, Ret tt) -> reach (m', rs ++ finished h, TDir todo) x -> reach (m, rs, TDir ((c, d) :: todo)) x.
  Proof.
    intros c d E R. unfold Consolidate.cons_dir in E. destruct (Consolidate.i_ls s m d) as [l|] eqn:Ls; [|discriminate E].
    destruct (Consolidate.all_some l) as [[ns ->]|N].
    - destruct Hs as (Hls & _). apply Hls in Ls as (D & ND & Ls).
      eapply (tool_step' _ _ _ AGo); [exact I|cbn [tool_step]; rewrite D; reflexivity|].
      eapply (entries_steps k tg sub todo ns m m' h [] rs x); [now apply NoDup_ListNoDup|intros n _ []| |exact E|exact R].
      intros n. pose proof (Ls n) as Ln. cbn [In]. fold d. tauto.
    - exfalso. apply (Consolidate.for_each_none (Consolidate.cons_entry s c d) l None m N); [intros m2; discriminate|]. unfold Consolidate.result. now rewrite E.
  Qed.

  Definition dirs_of (kt : str * str) : list (path * path) :=
    map (fun sub => (Consolidate.corpus_of td id kt.1 kt.2, Consolidate.output_of td id kt.1 kt.2 ++ [lit "default"; sub])) [lit "crashes"; lit "hangs"; lit "queue"].

  Lemma seq_ret r f m' h : Consolidate.seq r f = (m', h, Ret tt) ->
    exists m1 h1 h2, r = (m1, h1, Ret tt) /\ f m1 = (m', h2, Ret tt) /\ h = h1 ++ h2.
  Proof.
    destruct r as [[m1 h1] [[]|e|]]; cbn [Consolidate.seq]; try discriminate. destruct (f m1) as [[m2 h2] o2] eqn:E. intros [= -> <- ->]. exists m1, h1, h2. auto.
  Qed.

  (** A loop whose body does [g a]. *)
  Lemma loop_steps {A B : Type} (mk : list B -> tool) (f : A -> fs -> Consolidate.res) (g : A -> list B)
    (Hb : forall a m m' h rs l x, f a m = (m', h, Ret tt) -> reach (m', rs ++ finished h, mk l) x -> reach (m, rs, mk (g a ++ l)) x) :
    forall l m m' h rs todo x, Consolidate.for_each f l m = (m', h, Ret tt) ->
      reach (m', rs ++ finished h, mk todo) x -> reach (m, rs, mk (List.concat (map g l) ++ todo)) x.
  Proof.
    induction l as [|a l IH]; intros m m' h rs todo x E R; cbn [Consolidate.for_each map List.concat] in *.
    - assert (m' = m /\ h = []) as [-> ->] by (split; congruence). cbn [finished map] in R. now rewrite app_nil_r in R.
    - apply seq_ret in E as (m1 & h1 & h2 & E1 & E2 & ->). rewrite <- app_assoc. apply (Hb a m m1 h1 rs _ x E1).
      apply (IH m1 m' h2 _ todo x E2). rewrite <- app_assoc. unfold finished in *. rewrite map_app in R. exact R.
  Qed.

  Lemma target_steps k tg m m' h rs todo x : Consolidate.cons_target s td id k tg m = (m', h, Ret tt) ->
    reach (m', rs ++ finished h, TDir todo) x -> reach (m, rs, TDir (dirs_of (k, tg) ++ todo)) x.
  Proof.
    unfold Consolidate.cons_target. rewrite Consolidate.corpus_of_eq, !Consolidate.output_sub_eq. cbn [Consolidate.with_dir].
    unfold dirs_of. cbn [fst snd map app Consolidate.for_each]. intros E R.
    apply seq_ret in E as (m1 & h1 & hr & E1 & E & ->). apply seq_ret in E as (m2 & h2 & hr2 & E2 & E & ->). apply seq_ret in E as (m3 & h3 & hr3 & E3 & E & ->).
    assert (m3 = m' /\ hr3 = []) as [-> ->] by (split; congruence). rewrite app_nil_r in R. unfold finished in R. rewrite !map_app, !app_assoc in R.
    eapply (dir_steps k tg (lit "crashes")); [exact E1|]. eapply (dir_steps k tg (lit "hangs")); [exact E2|]. eapply (dir_steps k tg (lit "queue")); [exact E3|]. exact R.
  Qed.

  (** Removal. *)
  Lemma delete_steps d ds : forall ps m rs x, (forall p, In p ps -> is_prefix d p = true) ->
    reach (fold_left (fun m p => delete p m) ps m, rs, TRm d ds) x -> reach (m, rs, TRm d ds) x.
  Proof.
    induction ps as [|p ps IH]; intros m rs x P R; [exact R|].
    eapply (tool_step' _ _ _ (ADel p)); [exact I|cbn [tool_step]; rewrite (P p (or_introl eq_refl)); reflexivity|].
    apply IH; [intros q I'; apply P; now right|exact R].
  Qed.

  Lemma fold_delete (ps : list path) : forall (m : fs) p,
    (In p ps -> fold_left (fun m p => delete p m) ps m !! p = None) /\ (~ In p ps -> fold_left (fun m p => delete p m) ps m !! p = m !! p).
  Proof.
    induction ps as [|q ps IH]; intros m p; cbn [fold_left In]; [tauto|]. destruct (IH (delete q m) p) as [H1 H2]. split.
    - intros [->|H]; [|auto]. destruct (in_dec (List.list_eq_dec str_dec) p ps) as [H|H]; [auto|]. rewrite H2 by exact H. apply lookup_delete.
    - intros H. rewrite H2 by tauto. apply lookup_delete_ne. tauto.
  Qed.

  Lemma removal_eq (m : fs) d : fold_left (fun m p => delete p m) (List.filter (is_prefix d) (map fst (map_to_list m))) m = filter (fun pn => is_prefix d pn.1 = false) m.
  Proof.
    apply map_eq. intros p. set (ps := List.filter _ _). destruct (fold_delete ps m p) as [H1 H2].
    destruct (is_prefix d p) eqn:P.
    - assert (filter (fun pn : path * node => is_prefix d pn.1 = false) m !! p = None) as -> by (apply map_filter_lookup_None; right; intros y _; cbn; congruence).
      destruct (in_dec (List.list_eq_dec str_dec) p ps) as [H|H]; [auto|]. rewrite H2 by exact H. destruct (m !! p) as [n|] eqn:L; [|reflexivity].
      exfalso. apply H. apply filter_In. split; [|exact P]. apply in_map_iff. exists (p, n). split; [reflexivity|]. apply elem_of_list_In, elem_of_map_to_list. exact L.
    - rewrite H2 by (intros I'; apply filter_In in I'; destruct I'; congruence). symmetry. destruct (m !! p) as [n|] eqn:L; [apply map_filter_lookup_Some; auto|apply map_filter_lookup_None; now left].
  Qed.

  Lemma reset_steps k tg m m' h rs ds x : Consolidate.reset_target s td id k tg m = (m', h, Ret tt) ->
    reach (m', rs ++ finished h, TReset ds) x -> reach (m, rs, TReset ([Consolidate.output_of td id k tg] ++ ds)) x.
  Proof.
    unfold Consolidate.reset_target. rewrite Consolidate.output_of_eq. cbn [Consolidate.with_dir]. set (d := Consolidate.output_of td id k tg). intros E R.
    destruct (exists_ m d) eqn:Ex.
    - destruct (Consolidate.i_rm s m d); [discriminate E|]. destruct (remove_dir_all m d) as [m2|] eqn:Rm; [|discriminate E]. assert (m2 = m' /\ h = []) as [-> ->] by (split; congruence).
      eapply (tool_step' _ _ _ AGo); [exact I|cbn [tool_step app]; rewrite Ex; reflexivity|].
      unfold remove_dir_all in Rm. destruct (m !! d) as [[y|]|]; try discriminate Rm. apply Some_inj in Rm. rewrite <- removal_eq in Rm.
      apply (delete_steps d ds (List.filter (is_prefix d) (map fst (map_to_list m))) m rs x); [intros p Ip; now apply filter_In in Ip|]. rewrite Rm.
      assert (Ex' : exists_ m' d = false).
      { assert (L : m' !! d = None). { rewrite <- Rm, removal_eq. apply map_filter_lookup_None. right. intros y _. cbn. intros F. assert (is_prefix d d = true) by (apply is_prefix_spec; exists []; now rewrite app_nil_r). congruence. }
        unfold exists_. destruct d as [|y l] eqn:Ed; [|now rewrite L]. exfalso. apply (f_equal (@List.length _)) in Ed. unfold d, Consolidate.output_of in Ed. rewrite app_length in Ed. cbn in Ed. lia. }
      eapply (tool_step' _ _ _ AEnd); [exact I|cbn [tool_step]; rewrite Ex'; reflexivity|].
      cbn [finished map] in R. now rewrite app_nil_r in R.
    - assert (m = m' /\ h = []) as [-> ->] by (split; congruence). cbn [finished map] in R. rewrite app_nil_r in R.
      eapply (tool_step' _ _ _ AGo); [exact I|cbn [tool_step app]; rewrite Ex; reflexivity|exact R].
  Qed.

  Definition pairs (ets : list (str * list str)) : list (str * str) := flat_map (fun et => map (pair (fst et)) (snd et)) ets.

  Lemma concat_flat {B} (g : str * str -> list B) ets :
    List.concat (map (fun et => List.concat (map (fun t => g (et.1, t)) et.2)) ets) = List.concat (map g (pairs ets)).
  Proof.
    induction ets as [|[k ts] ets IH]; [reflexivity|]. cbn [map List.concat pairs flat_map fst snd]. rewrite map_app, concat_app, IH. f_equal. now rewrite map_map.
  Qed.

  Lemma mapM_all {A B} (f : A -> outcome B) (g : A -> B) : (forall a, f a = Ret (g a)) -> forall l, mapM f l = Ret (map g l).
  Proof. intros H. induction l as [|a l IH]; [reflexivity|]. cbn [mapM map]. rewrite H, IH. reflexivity. Qed.

  Lemma check_ret b f m r : Consolidate.check b f m = (r, Ret tt) -> b = true /\ f m = (r, Ret tt).
  Proof. unfold Consolidate.check. destruct b; [auto|discriminate]. Qed.

  Lemma for_each_checks {A} (chk : A -> bool) (f : A -> fs -> Consolidate.res) : forall l m m' h,
    Consolidate.for_each (fun a => Consolidate.check (chk a) (f a)) l m = (m', h, Ret tt) -> forallb chk l = true.
  Proof.
    induction l as [|a l IH]; intros m m' h E; [reflexivity|]. cbn [Consolidate.for_each] in E. apply seq_ret in E as (m1 & h1 & h2 & E1 & E2 & _).
    apply check_ret in E1 as [C _]. cbn [forallb]. rewrite C. cbn. eapply IH. exact E2.
  Qed.

  Lemma consolidate_steps o ets m m' h rs x : Consolidate.consolidate s td id o ets m = (m', h, Ret tt) ->
    exists todo, over_targets (o_consolidate_all o) (target_dirs td id) ets = Ret todo /\
      (reach (m', rs ++ finished h, TDir []) x -> reach (m, rs, TDir todo) x).
  Proof.
    unfold Consolidate.consolidate. intros E. apply check_ret in E as [C E]. exists (List.concat (map dirs_of (pairs ets))). split.
    - unfold over_targets, assertions. rewrite C. pose proof (for_each_checks _ _ _ _ _ _ E) as F. cbn beta in F. rewrite F. cbn [andb].
      erewrite mapM_all by (intros a; apply target_dirs_eq). reflexivity.
    - intros R. rewrite <- (app_nil_r (List.concat _)), <- concat_flat.
      eapply (loop_steps TDir); [|exact E|exact R]. cbn beta. intros et m1 m2 h1 rs1 l y E1 R1. apply check_ret in E1 as [_ E1].
      eapply (loop_steps TDir); [|exact E1|exact R1]. cbn beta. intros t m3 m4 h3 rs3 l3 z. apply target_steps.
  Qed.

  Lemma resets_steps o ets m m' h rs x : Consolidate.reset s td id o ets m = (m', h, Ret tt) ->
    exists ds, resetting td id o ets = Ret ds /\ (reach (m', rs ++ finished h, TReset []) x -> reach (m, rs, TReset ds) x).
  Proof.
    unfold Consolidate.reset. intros E. apply check_ret in E as [C E]. exists (List.concat (map (fun kt => [Consolidate.output_of td id kt.1 kt.2]) (pairs ets))). split.
    - unfold resetting, over_targets, assertions. rewrite C. pose proof (for_each_checks _ _ _ _ _ _ E) as F. cbn beta in F. rewrite F. cbn [andb].
      erewrite mapM_all by (intros a; rewrite Consolidate.output_of_eq; reflexivity). reflexivity.
    - intros R. rewrite <- (app_nil_r (List.concat _)), <- concat_flat.
      eapply (loop_steps TReset); [|exact E|exact R]. cbn beta. intros et m1 m2 h1 rs1 l y E1 R1. apply check_ret in E1 as [_ E1].
      eapply (loop_steps TReset); [|exact E1|exact R1]. cbn beta. intros t m3 m4 h3 rs3 l3 z. apply reset_steps.
  Qed.
End Alone.

(** * Theorems *)

(** At every moment (so also if any invocations are killed then): a finding is where the fuzzer left
    it, or has been recorded completely to the corpus of its target; and the latter if an
    invocation that consolidates the target has returned successfully.  Whatever tests, fuzzers and
    other invocations do at the same time, provided the fuzzers leave the finding alone and no
    invocation resets the target without consolidating. *)
Theorem C102_finding_safe :
  forall (td : path) (calls : list call) (K : path -> Prop) (m0 m : fs) (es : list cevent) (rs : list recorder) (ts : list (call * tool))
         (id : option str) (krate target : str) (p c : path) (b : bytes),
    Consolidate.finding td id m0 krate target p b -> K p -> dir_from_target td id Corpus krate target = Ret c ->
    (forall cl, In cl calls -> removes td cl p -> consolidates (c_opts cl)) ->
    honest_run td K (cstart td m0 calls) es -> crun td (cstart td m0 calls) es = (m, rs, ts) ->
    let recorded := exists r, r ∈ rs /\ r_dir r = c /\ r_data r = b /\ r_st r = SDone in
    (m !! p = Some (File b) \/ recorded) /\
    forall cl, c_id cl = id -> Consolidate.selected (c_ets cl) krate target -> (cl, TEnd (Ret tt)) ∈ ts -> recorded.
Proof.
  intros td calls K m0 m es rs ts id k tg p c b (sub & d & n & Is & D & N1 & N2 & -> & L) HK Dc Hc Ho E recd.
  rewrite Consolidate.corpus_of_eq in Dc. apply ret_inj in Dc. rewrite Consolidate.output_sub_eq in D. apply ret_inj in D. subst c d.
  assert (Sk : Consolidate.skipped n = false) by (apply Consolidate.skipped_false; auto).
  destruct (runs_ind td K _ (fun s e Ci H He => holds_step td K _ _ n b s e (Consolidate.sub_in_zone td id k tg sub n) Sk HK Ci H He)
              es _ (cinv_start td m0 calls) (holds_start td calls m0 id k tg sub n b Is L Hc) Ho) as [_ H].
  rewrite E in H. destruct H as [H1 H2]. fold (recorded (Consolidate.corpus_of td id k tg) b rs) in recd. split; [exact H1|].
  intros cl <- Sel I. destruct (H2 cl _ I) as [H|[]]; [|exact H]. exists k, tg, (Consolidate.output_of td (c_id cl) k tg). split; [exact Sel|].
  split; [apply Consolidate.output_of_eq|]. eexists. rewrite <- app_assoc. reflexivity.
Qed.
Print Assumptions C102_finding_safe.

(** So once all recorders are done the finding is in the corpus. *)
Theorem C102_finding_kept :
  forall (td : path) (calls : list call) (K : path -> Prop) (m0 m : fs) (es : list cevent) (rs : list recorder) (ts : list (call * tool))
         (cl : call) (krate target : str) (p : path) (b : bytes),
    Consolidate.finding td (c_id cl) m0 krate target p b -> K p -> Consolidate.selected (c_ets cl) krate target ->
    (forall cl, In cl calls -> removes td cl p -> consolidates (c_opts cl)) ->
    honest_run td K (cstart td m0 calls) es -> crun td (cstart td m0 calls) es = (m, rs, ts) -> (cl, TEnd (Ret tt)) ∈ ts ->
    apart rs -> (forall r, r ∈ rs -> r_st r = SDone) ->
    in_corpus td (c_id cl) krate target b m.
Proof.
  intros td calls K m0 m es rs ts cl k tg p b F HK Sel Hc Ho E It A D.
  pose proof (Consolidate.corpus_of_eq td (c_id cl) k tg) as Dc.
  destruct (C102_finding_safe td calls K m0 m es rs ts (c_id cl) k tg p _ b F HK Dc Hc Ho E) as [_ R]. destruct (R cl eq_refl Sel It) as (r & Ir & Er & Ed & _).
  destruct (runs_ind td K (fun _ => True) (fun _ _ _ _ _ => I) es _ (cinv_start td m0 calls) I Ho) as [Ci _].
  rewrite E in Ci. destruct Ci as (_ & _ & V).
  exists (Consolidate.corpus_of td (c_id cl) k tg). split; [exact Dc|]. unfold fs_read. subst b. rewrite <- Er.
  change (r_dir r ++ [corpus_name (r_data r)]) with (r_path r). rewrite (intact m rs r (V A)); auto.
Qed.
Print Assumptions C102_finding_kept.

(** What tests (and the invocations) record is intact when the recorders of it are done. *)
Theorem C102_recording_intact :
  forall (td : path) (calls : list call) (K : path -> Prop) (m0 m : fs) (es : list cevent) (rs : list recorder) (ts : list (call * tool)) (r : recorder),
    honest_run td K (cstart td m0 calls) es -> crun td (cstart td m0 calls) es = (m, rs, ts) -> apart rs -> r ∈ rs ->
    (forall q, q ∈ rs -> r_dir q = r_dir r -> r_data q = r_data r -> r_st q = SDone) ->
    fs_read m (r_dir r ++ [corpus_name (r_data r)]) = Some (r_data r).
Proof.
  intros td calls K m0 m es rs ts r Ho E A Ir D.
  destruct (runs_ind td K (fun _ => True) (fun _ _ _ _ _ => I) es _ (cinv_start td m0 calls) I Ho) as [Ci _].
  rewrite E in Ci. destruct Ci as (_ & _ & V). unfold fs_read.
  change (r_dir r ++ [corpus_name (r_data r)]) with (r_path r). rewrite (intact m rs r (V A)); auto.
  intros q Iq Eq. destruct (r_path_data (m, rs) q r (V A) Iq Ir Eq). auto.
Qed.
Print Assumptions C102_recording_intact.

(** What was in a corpus before is intact when the recorders of it, if any, are done. *)
Theorem C102_corpus_kept :
  forall (td : path) (calls : list call) (K : path -> Prop) (m0 m : fs) (es : list cevent) (rs : list recorder) (ts : list (call * tool))
         (id : option str) (krate target : str) (d : path) (b : bytes),
    dir_from_target td id Corpus krate target = Ret d -> m0 !! (d ++ [corpus_name b]) = Some (File b) ->
    honest_run td K (cstart td m0 calls) es -> crun td (cstart td m0 calls) es = (m, rs, ts) ->
    apart rs -> (forall r, r ∈ rs -> sha1 (r_data r) = sha1 b -> r_data r = b /\ (r_dir r = d -> r_st r = SDone)) ->
    fs_read m (d ++ [corpus_name b]) = Some b.
Proof.
  intros td calls K m0 m es rs ts id k tg d b D L Ho E A Un. rewrite Consolidate.corpus_of_eq in D. apply ret_inj in D.
  assert (U : ~ under (Consolidate.zone td) (d ++ [corpus_name b])).
  { intros U. rewrite <- D in U. exact (Consolidate.corpus_not_zone td id k tg [corpus_name b] _ U eq_refl). }
  destruct (runs_ind td K (kept (d ++ [corpus_name b]) b) (fun s e Ci H He => kept_step td K _ b s e U Ci H He)
              es _ (cinv_start td m0 calls) (or_introl L) Ho) as [Ci H].
  rewrite E in Ci, H. destruct Ci as (_ & _ & V). unfold fs_read. destruct H as [H|(r & Ir & Ep & _)]; [now rewrite H|].
  assert (Ed : r_data r = b).
  { unfold r_path in Ep. apply app_inj_tail in Ep as [_ Ep]. apply corpus_name_eq in Ep. now apply (Un r Ir). }
  rewrite <- Ep, (intact m rs r (V A)); [now rewrite Ed| |exact Ir].
  intros q Iq Eq. rewrite Ep in Eq. unfold r_path in Eq. apply app_inj_tail in Eq as [Q1 Q2]. apply corpus_name_eq in Q2. destruct (Un q Iq Q2); auto.
Qed.
Print Assumptions C102_corpus_kept.

(** Alone, an invocation can do what [consolidate_or_reset] (Consolidate.v) says, with the same
    recordings: so the model of C48, C49 and C101 is a special case of this one. *)
Theorem C102_alone :
  forall (s : Consolidate.io) (td : path) (id : option str) (o : opts) (ets : list (str * list str)) (m m' : fs) (h : list (path * bytes)),
    Consolidate.io_ok s -> Consolidate.consolidate_or_reset s td id o ets m = Some (m', h, Ret tt) ->
    exists es rs, Forall quiet es /\ honest_run td (fun _ => True) (cstart td m [Call id o ets]) es /\
      crun td (cstart td m [Call id o ets]) es = (m', rs, [(Call id o ets, TEnd (Ret tt))]) /\
      rs = map (fun e => Rec e.1 e.2 SDone) h.
Proof.
  intros s td id o ets m m' h Hs E. set (cl := Call id o ets).
  assert (G : reach td cl (m, [], tool_start td id o ets) (m', finished h, TEnd (Ret tt))).
  { assert (E' : Consolidate.seq (if (if o_consolidate_all o || o_reset_all o then o_consolidate_all o else o_consolidate o) then Consolidate.consolidate s td id o ets m else (m, [], Ret tt))
                  (Consolidate.reset s td id o ets) = (m', h, Ret tt)).
    { unfold Consolidate.consolidate_or_reset in E. destruct (o_consolidate_all o || o_reset_all o); [congruence|]. destruct (o_consolidate o || o_reset o); [congruence|discriminate]. }
    apply seq_ret in E' as (m1 & h1 & h2 & E1 & E2 & ->).
    destruct (resets_steps s td cl o ets m1 m' h2 (finished h1) (m', finished (h1 ++ h2), TEnd (Ret tt)) E2) as (ds & Fd & R2).
    assert (R : reach td cl (m1, finished h1, TDir []) (m', finished (h1 ++ h2), TEnd (Ret tt))).
    { eapply (tool_step' td cl _ _ _ AGo); [exact I|cbn [tool_step c_opts c_ets cl]; cbn [c_id cl] in *; rewrite Fd; reflexivity|].
      apply R2. eapply (tool_step' td cl _ _ _ AGo); [exact I|cbn [tool_step]; reflexivity|].
      unfold finished. rewrite map_app. apply reach_refl. }
    unfold tool_start, consolidation. destruct (if o_consolidate_all o || o_reset_all o then o_consolidate_all o else o_consolidate o).
    - destruct (consolidate_steps s td cl Hs o ets m m1 h1 [] (m', finished (h1 ++ h2), TEnd (Ret tt)) E1) as (todo & F1 & R1). cbn [c_id cl] in F1. rewrite F1. now apply R1.
    - assert (m1 = m /\ h1 = []) as [-> ->] by (split; congruence). exact R. }
  destruct G as (es & Q & H & C). exists es, (finished h). auto.
Qed.
Print Assumptions C102_alone.

(** An invocation that is to consolidate panics before anything else exactly if more or less than
    one target is selected and it is not to consolidate all; and it panics when it comes to
    resetting exactly if that is so and it is not to reset all. *)
Theorem C102_ambiguous :
  forall (td : path) (id : option str) (o : opts) (ets : list (str * list str)),
    (tool_start td id o ets = TEnd Panic <-> consolidates o /\ o_consolidate_all o = false /\ ~ exists krate target, ets = [(krate, [target])]) /\
    (resetting td id o ets = Panic <-> o_reset_all o = false /\ ~ exists krate target, ets = [(krate, [target])]) /\
    (forall e, tool_start td id o ets <> TEnd (Err e)) /\ (forall e, resetting td id o ets <> Err e).
Proof.
  intros td id o ets.
  assert (As : forall all, assertions all ets = true <-> all = true \/ exists k t, ets = [(k, [t])]).
  { intros [|]; unfold assertions; cbn [orb].
    - split; [auto|]. intros _. cbn [andb]. apply forallb_forall. auto.
    - split.
      + intros H. right. apply andb_prop in H as [H1 H2]. apply Nat.eqb_eq in H1. destruct ets as [|[k ts] [|? ?]]; try discriminate H1.
        cbn [forallb snd] in H2. apply andb_prop in H2 as [H2 _]. apply Nat.eqb_eq in H2. destruct ts as [|t [|? ?]]; try discriminate H2. eauto.
      + intros [H|(k & t & ->)]; [discriminate|reflexivity]. }
  assert (Ov : forall A all (f : str -> str -> outcome (list A)), (forall k t, exists l, f k t = Ret l) ->
            (over_targets all f ets = Panic <-> all = false /\ ~ exists k t, ets = [(k, [t])]) /\ forall e, over_targets all f ets <> Err e).
  { intros A all f F. unfold over_targets. destruct (assertions all ets) eqn:E.
    - assert (M : exists ls, mapM (fun kt => f kt.1 kt.2) (flat_map (fun et => map (pair et.1) et.2) ets) = Ret ls).
      { induction (flat_map _ ets) as [|kt kts IH]; [now exists []|]. destruct IH as (ls & IH). cbn [mapM]. destruct (F kt.1 kt.2) as (l & ->). cbn [bind]. rewrite IH. cbn [bind]. eauto. }
      destruct M as (ls & ->). cbn [bind]. split; [|discriminate]. split; [discriminate|]. intros [-> N]. apply As in E as [E|E]; [discriminate|contradiction].
    - split; [|discriminate]. split; [|reflexivity]. intros _. split.
      + destruct all; [|reflexivity]. rewrite (proj2 (As true) (or_introl eq_refl)) in E. discriminate.
      + intros N. rewrite (proj2 (As all) (or_intror N)) in E. discriminate. }
  assert (T : forall k t, exists l, target_dirs td id k t = Ret l).
  { intros k t. unfold target_dirs. rewrite Consolidate.corpus_of_eq. cbn [bind]. rewrite !Consolidate.output_sub_eq. cbn [bind]. eauto. }
  assert (D : forall k t, exists l, bind (dir_from_target td id Output k t) (fun d => Ret [d]) = Ret l).
  { intros k t. rewrite Consolidate.output_of_eq. cbn [bind]. eauto. }
  destruct (Ov _ (o_consolidate_all o) _ T) as [C1 C2]. destruct (Ov _ (o_reset_all o) _ D) as [R1 R2]. fold (resetting td id o ets) in R1, R2.
  assert (Co : (if o_consolidate_all o || o_reset_all o then o_consolidate_all o else o_consolidate o) = true <-> consolidates o).
  { unfold consolidates. destruct (o_consolidate_all o), (o_reset_all o), (o_consolidate o); cbn; intuition congruence. }
  split; [|split; [exact R1|split; [|exact R2]]]; unfold tool_start, consolidation.
  - destruct (if o_consolidate_all o || o_reset_all o then _ else _).
    + destruct (over_targets _ _ _) as [l|e|]; (split; [intros H; try discriminate H|intros (_ & H); apply C1 in H; try discriminate H; reflexivity]).
      split; [now apply Co|now apply C1].
    + split; [discriminate|]. intros (H & _). apply Co in H. discriminate.
  - intros e. destruct (if o_consolidate_all o || o_reset_all o then _ else _); [|discriminate].
    destruct (over_targets _ _ _) as [l|e'|]; try discriminate. destruct (C2 e' eq_refl).
Qed.
Print Assumptions C102_ambiguous.

(** * A concrete run *)

#[local] Instance node_eq_dec : EqDecision node.
Proof. solve_decision. Defined.

(** A check that events are as assumed: the fuzzers are those of one output directory. *)
Definition ex_honest (td : path) (id : option str) (krate target : str) (kb : path -> bool) (s : csys) (e : cevent) : bool :=
  let '(m, rs, ts) := s in
  match e with
  | ETool j AEnd => match ts !! j with
                  | Some (_, TList _ d seen _) => forallb (fun n => negb (kb (d ++ [n])) || existsb (str_eqb n) seen) (Consolidate.children m d)
                  | _ => true
                  end
  | ETool _ _ | ERec _ _ => true
  | ETest d _ => match dir_from_args_type td id Corpus (lit "c::f_fuzz__::Args") with Ret d' => if decide (d' = d) then true else false | _ => false end
  | EFuzz m' => match dir_from_target td id Output krate target with
                | Ret d => forallb (fun p => (if decide (m' !! p = m !! p) then true else false) || (negb (kb p) && is_prefix d p)) (map fst (map_to_list m) ++ map fst (map_to_list m'))
                | _ => false
                end
  end.

Fixpoint ex_honest_run (td : path) (id : option str) (krate target : str) (kb : path -> bool) (s : csys) (es : list cevent) : bool :=
  match es with
  | [] => true
  | e :: es' => ex_honest td id krate target kb s e && ex_honest_run td id krate target kb (cstep td s e) es'
  end.

Lemma key_in (m : fs) p n : m !! p = Some n -> In p (map fst (map_to_list m)).
Proof. intros L. apply in_map_iff. exists (p, n). split; [reflexivity|]. apply elem_of_list_In, elem_of_map_to_list. exact L. Qed.

Lemma ex_honest_ok td id k t kb s e : ex_honest td id k t kb s e = true -> honest td (fun p => kb p = true) s e.
Proof.
  destruct s as [[m rs] ts]. destruct e as [j [|n| | |q]|d x|i a|m']; cbn [ex_honest honest]; auto.
  - destruct (ts !! j) as [[cl [| c d seen todo| | | | |]]|]; auto. intros H n Kp L. rewrite forallb_forall in H.
    assert (I : In n (Consolidate.children m d)).
    { apply elem_of_list_In, elem_of_list_omap. destruct (m !! (d ++ [n])) as [y|] eqn:E; [|contradiction]. exists (d ++ [n]).
      split; [apply elem_of_list_In; eapply key_in; exact E|now apply Consolidate.child_some]. }
    specialize (H n I). rewrite Kp in H. cbn in H. apply existsb_exists in H as (y & Iy & Ey). unfold str_eqb in Ey. destruct (str_dec n y); [now subst|discriminate].
  - destruct (dir_from_args_type td id Corpus (lit "c::f_fuzz__::Args")) as [d'|e|] eqn:D; try discriminate. destruct (decide (d' = d)) as [<-|]; [|discriminate]. intros _.
    exists id, Corpus, (lit "c::f_fuzz__::Args"). split; [discriminate|exact D].
  - destruct (dir_from_target td id Output k t) as [d|e|] eqn:D; try discriminate. rewrite forallb_forall. intros H p.
    assert (C : m' !! p = m !! p \/ kb p = false /\ is_prefix d p = true).
    { destruct (decide (m' !! p = m !! p)) as [E|N]; [now left|].
      assert (I : In p (map fst (map_to_list m) ++ map fst (map_to_list m'))).
      { apply in_or_app. destruct (m !! p) as [y|] eqn:L; [left; eapply key_in; exact L|]. destruct (m' !! p) as [y|] eqn:L'; [right; eapply key_in; exact L'|congruence]. }
      specialize (H p I). destruct (decide (m' !! p = m !! p)); [contradiction|]. cbn in H. apply andb_prop in H as [H1 H2]. right. split; [now apply negb_true_iff|exact H2]. }
    split; [intros Kp; destruct C as [C|[C _]]; congruence|]. destruct C as [C|[_ C]]; [now left|]. right. exists id, k, t, d. split; [exact D|]. left. now apply is_prefix_spec.
Qed.

Lemma ex_honest_run_ok td id k t kb es : forall s, ex_honest_run td id k t kb s es = true -> honest_run td (fun p => kb p = true) s es.
Proof.
  induction es as [|e es IH]; intros s H; [exact I|]. cbn [ex_honest_run] in H. apply andb_prop in H as [H1 H2]. split; [now apply (ex_honest_ok td id k t)|now apply IH].
Qed.

Definition ex_td : path := [lit "t"].
Definition ex_o (consolidate : bool) : opts :=
  {| o_backtrace := false; o_consolidate := consolidate; o_consolidate_all := false; o_coverage := None;
     o_cpus := None; o_display := None; o_exact := true; o_exit_code := false; o_list := false;
     o_max_total_time := None; o_no_run := false; o_no_ui := true; o_persistent := false;
     o_pretty := false; o_replay := None; o_reset := negb consolidate; o_reset_all := false; o_resume := false;
     o_run_until_crash := false; o_slice := 1200%N; o_timeout := None;
     o_features := []; o_manifest_path := None; o_no_default_features := false; o_package := None;
     o_release := false; o_test := None; o_verbose := false; o_ztarget := Some (lit "f"); o_zzargs := [] |}.
Definition ex_ets : list (str * list str) := [(lit "c", [lit "f"])].
Definition ex_out (l : list str) : path := [lit "t"; lit "afl"; lit "output"; lit "c::f"] ++ l.
Definition ex_c : path := [lit "t"; lit "corpus"; lit "c::f"].
Definition ex_late : path := ex_out [lit "default"; lit "crashes"; lit "id:1"].
Definition ex_m0 : fs :=
  <[ex_out [lit "default"; lit "crashes"; lit "id:0"] := File (lit "boom")]>
  (fold_left (fun m d => (create_dir_all m (ex_out [lit "default"; d])).1) [lit "crashes"; lit "hangs"; lit "queue"] ∅).
Definition ex_go (i : nat) : list cevent := repeat (ERec i (Go 0)) 5.
Definition ex_calls : list call := [Call None (ex_o true) ex_ets; Call None (ex_o true) ex_ets].
(** Two invocations consolidate at once; a test begins to record, then the tools copy the crash,
    then the test goes on. *)
Definition ex_before : list cevent :=
  [ETool 0 AGo; ETool 1 AGo; ETool 0 (AName (lit "id:0")); ETool 1 (AName (lit "id:0")); ETest ex_c (lit "hi")] ++ ex_go 0 ++ [ETool 0 AGo] ++ ex_go 1 ++ [ETool 1 AGo]
  ++ [ERec 0 (Go 0); ERec 1 (Go 1)] ++ ex_go 2 ++ [ERec 1 (Go 9); ERec 0 (Go 0); ERec 1 (Go 0)]
  ++ [ETool 0 AGo; ETool 0 AEnd].
(** The fuzzer is still running and finds another crash. *)
Definition ex_found : fs := <[ex_late := File (lit "late")]> (crun ex_td (cstart ex_td ex_m0 ex_calls) ex_before).1.1.
(** The first removes the output; the second does not find the next directory. *)
Definition ex_after : list cevent :=
  [ETool 0 AGo; ETool 0 AEnd; ETool 0 AGo; ETool 0 AEnd; ETool 0 AGo; ETool 0 AGo; ETool 0 (ADel ex_late); ERec 0 (Go 0)]
  ++ map (fun p => ETool 0 (ADel p)) (List.filter (is_prefix (ex_out [])) (map fst (map_to_list ex_m0))) ++ [ETool 0 AEnd; ETool 0 AGo]
  ++ ex_go 2 ++ [ETool 1 AGo; ETool 1 AEnd; ETool 1 AGo].

(** Two tools, a test and a fuzzer at once: the crash that was there is in the corpus, and what the
    test recorded; the later crash is nowhere. *)
Example C102_example :
  let s0 := cstart ex_td ex_m0 ex_calls in
  let es := ex_before ++ EFuzz ex_found :: ex_after in
  honest_run ex_td (fun p => (if decide (p = ex_late) then false else true) = true) s0 es /\
  match crun ex_td s0 es with
  | (m, rs, ts) => map snd ts = [TEnd (Ret tt); TEnd (Err (failed_for (lit "read_dir") (ex_out [lit "default"; lit "hangs"])))] /\
                  map r_st rs = [SDone; SDone; SDone] /\ map r_data rs = [lit "hi"; lit "boom"; lit "boom"] /\
                  fs_read m (ex_c ++ [corpus_name (lit "boom")]) = Some (lit "boom") /\ fs_read m (ex_c ++ [corpus_name (lit "hi")]) = Some (lit "hi") /\
                  List.length (map_to_list m) = 7
  end.
Proof.
  cbv zeta. split; [|vm_compute; repeat split; reflexivity].
  apply (ex_honest_run_ok ex_td None (lit "c") (lit "f") (fun p => if decide (p = ex_late) then false else true)). vm_compute. reflexivity.
Qed.

(** What a fuzzer finds after the tool has listed its directory is lost, although the tool
    succeeds: it is removed without having been copied. *)
Theorem C102_late_finding_refuted :
  exists (td : path) (calls : list call) (cl : call) (K : path -> Prop) (m0 m1 m : fs) (es1 es2 : list cevent) (rs : list recorder) (ts : list (call * tool))
         (krate target : str) (p : path) (b : bytes),
    (forall c, In c calls -> consolidates (c_opts c)) /\ Consolidate.selected (c_ets cl) krate target /\ Consolidate.finding td (c_id cl) m1 krate target p b /\
    honest_run td K (cstart td m0 calls) (es1 ++ EFuzz m1 :: es2) /\ crun td (cstart td m0 calls) (es1 ++ EFuzz m1 :: es2) = (m, rs, ts) /\
    (cl, TEnd (Ret tt)) ∈ ts /\ forall q, m !! q <> Some (File b).
Proof.
  exists ex_td, ex_calls, (Call None (ex_o true) ex_ets), (fun p => (if decide (p = ex_late) then false else true) = true), ex_m0, ex_found.
  destruct C102_example as [H1 H2]. cbv zeta in *.
  assert (H3 : map fst (crun ex_td (cstart ex_td ex_m0 ex_calls) (ex_before ++ EFuzz ex_found :: ex_after)).2 = ex_calls) by (vm_compute; reflexivity).
  destruct (crun ex_td (cstart ex_td ex_m0 ex_calls) (ex_before ++ EFuzz ex_found :: ex_after)) as [[m rs] ts] eqn:E.
  destruct H2 as (H2 & _). exists m, ex_before, ex_after, rs, ts, (lit "c"), (lit "f"), ex_late, (lit "late").
  split; [intros c [<-|[<-|[]]]; right; split; reflexivity|]. split; [exists [lit "f"]; split; now left|]. split.
  - exists (lit "crashes"), (ex_out [lit "default"; lit "crashes"]), (lit "id:1"). split; [now left|]. split; [reflexivity|]. split; [discriminate|]. split; [discriminate|].
    split; [reflexivity|]. unfold ex_found. apply lookup_insert.
  - split; [exact H1|]. split; [exact E|]. split.
    + cbn [snd] in H3. destruct ts as [|[c1 t1] ts]; [discriminate H2|]. 
      assert (T1 : t1 = TEnd (Ret tt)) by exact (f_equal (hd (TEnd Panic)) H2). assert (C1 : c1 = Call None (ex_o true) ex_ets) by exact (f_equal (hd c1) H3).
      rewrite T1, C1. left.
    + intros q L.
      assert (C : forallb (fun pn : path * node => match snd pn with File x => negb (str_eqb x (lit "late")) | Dir => true end) (map_to_list m) = true).
      { apply (f_equal (fun x => x.1.1)) in E. cbn [fst] in E. rewrite <- E. vm_compute. reflexivity. }
      rewrite forallb_forall in C. specialize (C (q, File (lit "late"))). cbn [snd] in C.
      assert (F : negb (str_eqb (lit "late") (lit "late")) = true) by (apply C; apply elem_of_list_In, elem_of_map_to_list; exact L). discriminate F.
Qed.
Print Assumptions C102_late_finding_refuted.
