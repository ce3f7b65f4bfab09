(** C105: why an invocation crashes. *)
From Coq Require Import String List Ascii Bool Arith NArith Lia.
From stdpp Require Import gmap strings.
From Verif Require Import Base Utf8 Lossy Decimal Env Dirs Opts Targets Semver Sha1 Fs Write Meta FuzzCmd Build AutoGen Run RunFacts PropsBuild PropsMeta PropsRun5.
From Verif Require Consolidate Entries Sched SchedInv SchedProofs Ui Lines PropsSched PropsRun PropsRun4.
Import ListNotations.
Local Open Scope nat_scope.

(** * Specification *)

(** The targets that are selected, in order. *)
Inductive picks (o : opts) : list str -> list str -> Prop :=
| pk_nil : picks o [] []
| pk_in tg ts us : selected o tg -> picks o ts us -> picks o (tg :: ts) (tg :: us)
| pk_out tg ts us : ~ selected o tg -> picks o ts us -> picks o (tg :: ts) us.

(** The targets an invocation that does [t] deals with, in order. *)
Inductive chosen (w : world) (o : opts) : list act -> list (executable * str) -> Prop :=
| ch_nil : chosen w o [] []
| ch_list x ts us t l : targets (w_listing w x) = Ret ts -> picks o ts us -> chosen w o t l ->
    chosen w o (AListTests x :: t) (map (fun tg => (x, tg)) us ++ l)
| ch_other a t l : (forall x, a <> AListTests x) -> chosen w o t l -> chosen w o (a :: t) l.

(** [cargo afl --version] says which version it is. *)
Definition tells_version (w : world) (v : version) : Prop :=
  exists out a word b, w_afl w = Some out /\ lossy out = lit "cargo-afl " ++ a ++ word ++ b /\
    (forall c, In c a -> is_ascii_ws c = true) /\ word <> [] /\ (forall c, In c word -> is_ascii_ws c = false) /\
    (b = [] \/ exists c b', b = c :: b' /\ is_ascii_ws c = true) /\ w_parse w word = Some v.

(** Cargo says nothing about the package with these features, or nothing about the current
    directory (or the manifest in [TEST_FUZZ_MANIFEST_PATH]). *)
Definition no_metadata (w : world) (o : opts) : Prop :=
  q_md (w_cargo w) (o_no_default_features o) (o_features o ++ [lit "test-fuzz/__persistent"]) (o_manifest_path o) = None \/
  q_here (w_cargo w) = false.

(** Coverage is wanted, and [cargo llvm-cov show-env] does not print assignments. *)
Definition no_environment (w : world) (o : opts) : Prop :=
  o_coverage o <> None /\
  (q_env (w_cargo w) = None \/
   exists b, q_env (w_cargo w) = Some b /\ (valid_utf8 b = false \/ exists l, In l (lines b) /\ ~ In "="%char l)).

(** The session went wrong: the display is on and the size of the terminal is unknown, or a name or
    something a fuzzer printed is not ASCII; or there was an event of a fuzzer that was not running,
    or two of one fuzzer at once. *)
Definition derailed (strip : bytes -> bytes) (k : Sched.cfg) (xs : list Sched.input) : Prop :=
  (Sched.k_no_ui k = false /\ exists tg, In tg (Sched.k_names k) /\ ~ is_ascii tg) \/
  exists xs1 x xs2 s t, xs = xs1 ++ x :: xs2 /\ Sched.run strip k (Sched.s_init k) xs1 = (Sched.Go s, t) /\
    ((Sched.k_no_ui k = false /\ Sched.in_size x = None) \/
     exists evs, Sched.in_poll x = Some evs /\
       ((exists i e1 e2 a b c, evs = a ++ e1 :: b ++ e2 :: c /\ Sched.ev_token e1 = i /\ Sched.ev_token e2 = i) \/
        exists ev, In ev evs /\
          (Sched.live t (Sched.ev_token ev) <> 1 \/
           (Sched.k_no_ui k = false /\ ~ is_ascii (Lines.delivered (Sched.ev_reads ev)))))).

(** An invocation that did [t] crashes. *)
Inductive crash (w : world) (o : opts) (t : list act) : Prop :=
| k_afl : t = [AVersion] -> (forall v, ~ tells_version w v) -> crash w o t
| k_metadata : t = [AVersion] -> no_metadata w o -> crash w o t
| k_environment : t = [AVersion] -> no_environment w o -> crash w o t
| k_consolidate t1 l : t = t1 ++ [AConsolidate] -> o_consolidate o = true -> o_consolidate_all o = false ->
    chosen w o t l -> List.length l <> 1 -> crash w o t
| k_reset t1 l : t = t1 ++ [AReset] -> o_reset_all o = false -> o_consolidate_all o || o_consolidate o || o_reset o = true ->
    chosen w o t l -> List.length l <> 1 -> crash w o t
| k_heading l x tg n : chosen w o t l -> 2 <= List.length l -> In (x, tg) l -> w_width w = Some n -> n <= List.length tg + 1 ->
    ~ is_ascii tg -> crash w o t
| k_cpus t1 att ns : t = t1 ++ [AGenerate att ns] -> o_cpus o = None -> w_cpus w = 0 -> crash w o t
| k_timeout t1 a n : t = t1 ++ [a] -> (exists att ns, a = AGenerate att ns) \/ (exists s, a = ACpus s) ->
    o_timeout o = Some n -> (2 ^ 64 <= n * 1000)%N -> w_checks w = true -> crash w o t
| k_session t1 os l k : t = t1 ++ [AParallel os] -> chosen w o t l -> Sched.k_names k = map snd l ->
    Sched.k_no_ui k = (o_no_ui o || o_exit_code o) -> 0 < Sched.k_cpus k <= w_cpus w ->
    Sched.run (w_strip w) k (Sched.s_init k) (w_session w) = (Sched.Finished Panic, os) ->
    derailed (w_strip w) k (w_session w) -> crash w o t.

(** * Proofs *)

(** ** Sessions *)

Lemma no_dup_dec (l : list Sched.event) :
  List.NoDup (map Sched.ev_token l) \/
  exists i e1 e2 a b c, l = a ++ e1 :: b ++ e2 :: c /\ Sched.ev_token e1 = i /\ Sched.ev_token e2 = i.
Proof.
  induction l as [|e l IH]; [left; constructor|]. destruct IH as [N|(i & e1 & e2 & a & b & c & -> & E1 & E2)].
  2:{ right. exists i, e1, e2, (e :: a), b, c. auto. }
  destruct (in_dec Nat.eq_dec (Sched.ev_token e) (map Sched.ev_token l)) as [I|I].
  - right. apply in_map_iff in I as (e2 & E & I). apply in_split in I as (b & c & ->). exists (Sched.ev_token e), e, e2, [], b, c. auto.
  - left. cbn [map]. constructor; assumption.
Qed.

Lemma forall_or {A} (P : A -> Prop) (l : list A) : (forall a, P a \/ ~ P a) -> List.Forall P l \/ exists a, In a l /\ ~ P a.
Proof.
  intros D. induction l as [|a l [F|(b & I & N)]]; [left; constructor| |right; exists b; split; [now right|exact N]].
  destruct (D a) as [H|H]; [left; now constructor|right; exists a; split; [now left|exact H]].
Qed.

Lemma ascii_dec_list (s : bytes) : is_ascii s \/ ~ is_ascii s.
Proof.
  destruct (forall_or (fun c => (byte c < 128)%N) s) as [F|(c & I & N)]; [intros c; lia|now left|right].
  intros F. unfold is_ascii in F. rewrite List.Forall_forall in F. exact (N (F c I)).
Qed.

Lemma env_ok_dec k t x : SchedProofs.env_ok k t x \/
  ((Sched.k_no_ui k = false /\ Sched.in_size x = None) \/
     exists evs, Sched.in_poll x = Some evs /\
       ((exists i e1 e2 a b c, evs = a ++ e1 :: b ++ e2 :: c /\ Sched.ev_token e1 = i /\ Sched.ev_token e2 = i) \/
        exists ev, In ev evs /\
          (Sched.live t (Sched.ev_token ev) <> 1 \/
           (Sched.k_no_ui k = false /\ ~ is_ascii (Lines.delivered (Sched.ev_reads ev)))))).
Proof.
  unfold SchedProofs.env_ok.
  assert (D1 : (Sched.k_no_ui k = false -> Sched.in_size x <> None) \/ (Sched.k_no_ui k = false /\ Sched.in_size x = None)).
  { destruct (Sched.k_no_ui k), (Sched.in_size x); (left; congruence) || right; auto. }
  destruct D1 as [D1|D1]; [|right; now left]. destruct (Sched.in_poll x) as [evs|]; [|left; split; [exact D1|discriminate]].
  destruct (no_dup_dec evs) as [N|N]; [|right; right; exists evs; split; [reflexivity|now left]].
  destruct (forall_or (fun ev => Sched.live t (Sched.ev_token ev) = 1) evs) as [L|(ev & I & L)].
  { intros ev. destruct (Nat.eq_dec (Sched.live t (Sched.ev_token ev)) 1); auto. }
  2:{ right. right. exists evs. split; [reflexivity|]. right. exists ev. auto. }
  destruct (Sched.k_no_ui k) eqn:U.
  { left. split; [exact D1|]. intros evs' [= <-]. split; [exact N|]. split; [exact L|discriminate]. }
  destruct (forall_or (fun ev => is_ascii (Lines.delivered (Sched.ev_reads ev))) evs) as [A|(ev & I & A)].
  { intros ev. apply ascii_dec_list. }
  - left. split; [exact D1|]. intros evs' [= <-]. auto.
  - right. right. exists evs. split; [reflexivity|]. right. exists ev. auto.
Qed.

Lemma session_panic strip k xs os : 0 < Sched.k_cpus k -> Ui.streaming strip ->
  Sched.run strip k (Sched.s_init k) xs = (Sched.Finished Panic, os) -> derailed strip k xs.
Proof.
  intros C St R. unfold derailed.
  assert (A : (Sched.k_no_ui k = false -> Forall is_ascii (Sched.k_names k)) \/ (Sched.k_no_ui k = false /\ exists tg, In tg (Sched.k_names k) /\ ~ is_ascii tg)).
  { destruct (Sched.k_no_ui k); [left; discriminate|]. destruct (forall_or is_ascii (Sched.k_names k) ascii_dec_list) as [F|F]; auto. }
  destruct A as [A|A]; [|now left]. right.
  assert (D : SchedProofs.honest strip k xs \/ exists xs1 x xs2 s t, xs = xs1 ++ x :: xs2 /\ Sched.run strip k (Sched.s_init k) xs1 = (Sched.Go s, t) /\
    ((Sched.k_no_ui k = false /\ Sched.in_size x = None) \/
     exists evs, Sched.in_poll x = Some evs /\
       ((exists i e1 e2 a b c, evs = a ++ e1 :: b ++ e2 :: c /\ Sched.ev_token e1 = i /\ Sched.ev_token e2 = i) \/
        exists ev, In ev evs /\
          (Sched.live t (Sched.ev_token ev) <> 1 \/
           (Sched.k_no_ui k = false /\ ~ is_ascii (Lines.delivered (Sched.ev_reads ev))))))).
  { clear R A. induction xs as [|x xs IH] using rev_ind.
    - left. intros xs1 y xs2 s t E _. destruct xs1; discriminate E.
    - destruct IH as [H|(xs1 & y & xs2 & s & t & -> & R & B)].
      2:{ right. exists xs1, y, (xs2 ++ [x]), s, t. split; [now rewrite <- app_assoc|auto]. }
      assert (H' : (forall s t, Sched.run strip k (Sched.s_init k) xs = (Sched.Go s, t) -> SchedProofs.env_ok k t x) \/
                   exists s t, Sched.run strip k (Sched.s_init k) xs = (Sched.Go s, t) /\
                     ((Sched.k_no_ui k = false /\ Sched.in_size x = None) \/
     exists evs, Sched.in_poll x = Some evs /\
       ((exists i e1 e2 a b c, evs = a ++ e1 :: b ++ e2 :: c /\ Sched.ev_token e1 = i /\ Sched.ev_token e2 = i) \/
        exists ev, In ev evs /\
          (Sched.live t (Sched.ev_token ev) <> 1 \/
           (Sched.k_no_ui k = false /\ ~ is_ascii (Lines.delivered (Sched.ev_reads ev))))))).
      { destruct (Sched.run strip k (Sched.s_init k) xs) as [[s|oc|] t]; try (left; intros; discriminate).
        destruct (env_ok_dec k t x) as [K|K]; [left; intros s' t' Q; assert (t' = t) as -> by congruence; exact K|right; eauto]. }
      destruct H' as [H'|(s & t & R & B)]; [left|right; exists xs, x, [], s, t; auto].
      intros xs1 y xs2 s t E R. destruct xs2 as [|z zs _] using rev_ind.
      2:{ rewrite app_comm_cons, app_assoc in E. apply app_inj_tail in E as [-> ->]. exact (H xs1 y zs s t eq_refl R). }
      apply app_inj_tail in E as [-> ->]. exact (H' _ _ R). }
  destruct D as [H|H]; [|exact H]. exfalso. apply (PropsSched.C53_never_panics strip k xs C St A H). now rewrite R.
Qed.

(** ** The targets dealt with *)

Lemma selected_dec o tg : selected o tg \/ ~ selected o tg.
Proof.
  unfold selected. destruct (o_ztarget o) as [pat|]; [|now left].
  pose proof (selects_bool (o_exact o) pat tg) as H. destruct (_ || _); [left|right]; rewrite <- H; congruence.
Qed.

Lemma picks_filter o ts :
  picks o ts (match o_ztarget o with Some pat => filter_targets (o_exact o) pat ts | None => ts end).
Proof.
  destruct (o_ztarget o) as [pat|] eqn:Z.
  - induction ts as [|tg ts IH]; [constructor|]. unfold filter_targets in *. cbn [List.filter].
    pose proof (selects_bool (o_exact o) pat tg) as H. destruct (_ || _); constructor; try exact IH; unfold selected; rewrite Z, <- H; congruence.
  - induction ts as [|tg ts IH]; [constructor|]. constructor; [|exact IH]. unfold selected. now rewrite Z.
Qed.

Definition flat (l : list (executable * list str)) : list (executable * str) := flat_map (fun et => map (fun t => (fst et, t)) (snd et)) l.

Lemma chosen_other w o t1 t2 l : (forall x, ~ In (AListTests x) t1) -> chosen w o t2 l -> chosen w o (t1 ++ t2) l.
Proof.
  intros N C. induction t1 as [|a t1 IH]; [exact C|]. cbn [app]. apply ch_other; [intros x ->; apply (N x); now left|].
  apply IH. intros x I. apply (N x). now right.
Qed.

Lemma chosen_none w o t : (forall x, ~ In (AListTests x) t) -> chosen w o t [].
Proof. intros N. rewrite <- (app_nil_r t). apply chosen_other; [exact N|constructor]. Qed.

Lemma flat_nonempty l : flat (List.filter (fun et => match snd et with [] => false | _ => true end) l) = flat l.
Proof. induction l as [|[x [|tg ts]] l IH]; [reflexivity|exact IH|]. cbn [List.filter snd]. unfold flat in *. cbn [flat_map]. now rewrite IH. Qed.

Lemma flat_filter exact pat l : flat (filter_executable_targets exact pat l) = flat_map (fun et => map (fun t => (fst et, t)) (filter_targets exact pat (snd et))) l.
Proof.
  induction l as [|[x ts] l IH]; [reflexivity|]. cbn [filter_executable_targets flat_map fst snd].
  destruct (filter_targets exact pat ts) as [|u us]; [exact IH|]. unfold flat in *. cbn [flat_map]. now rewrite IH.
Qed.

Lemma nonempty_filter exact pat l :
  flat (filter_executable_targets exact pat (List.filter (fun et : executable * list str => match snd et with [] => false | _ => true end) l)) =
  flat_map (fun et => map (fun t => (fst et, t)) (filter_targets exact pat (snd et))) l.
Proof.
  rewrite flat_filter. induction l as [|[x [|tg ts]] l IH]; [reflexivity|exact IH|]. cbn [List.filter snd flat_map]. now rewrite IH.
Qed.

Lemma chosen_listing w o xs l1 t l :
  mapM (fun e => bind (targets (w_listing w e)) (fun ts => Ret (e, ts))) xs = Ret l1 ->
  chosen w o t l ->
  chosen w o (map (fun x => AListTests x) xs ++ t)
    (flat_map (fun et => map (fun t => (fst et, t)) (match o_ztarget o with Some pat => filter_targets (o_exact o) pat (snd et) | None => snd et end)) l1 ++ l).
Proof.
  intros M C. revert l1 M. induction xs as [|x xs IH]; intros l1 M; cbn [mapM map app] in *.
  { injection M as <-. exact C. }
  destruct (targets (w_listing w x)) as [ts|e|] eqn:T; cbn [bind] in M; try discriminate M.
  destruct (mapM _ xs) as [l2|e|]; cbn [bind] in M; try discriminate M. injection M as <-.
  cbn [flat_map fst snd]. rewrite <- app_assoc. apply (ch_list w o x ts); [exact T|apply picks_filter|exact (IH l2 eq_refl)].
Qed.

Lemma prepared w o m m' t l : p_prepare w o m = (m', t, ROk l) -> chosen w o t (flat l) /\ forall x ts, In (x, ts) l -> ts <> [].
Proof.
  intros E. unfold p_prepare in E.
  apply pbind_inv in E as [(m1 & t1 & t2 & a & X1 & E & ->)|(r1 & _ & _ & N & _)]; [|exfalso; eapply N; reflexivity].
  assert (t1 = [AVersion]) as -> by (unfold pact in X1; congruence).
  apply pbind_inv in E as [(m3 & t3 & t4 & afl & X3 & E & ->)|(r1 & _ & _ & N & _)]; [|exfalso; eapply N; reflexivity].
  apply pbind_inv in E as [(m5 & t5 & t6 & xs & X5 & E & ->)|(r1 & _ & _ & N & _)]; [|exfalso; eapply N; reflexivity].
  apply pbind_inv in E as [(m7 & t7 & t8 & l0 & X7 & E & ->)|(r1 & _ & _ & N & _)]; [|exfalso; eapply N; reflexivity].
  apply pbind_inv in E as [(m9 & t9 & t10 & u & X9 & E & ->)|(r1 & _ & _ & N & _)]; [|exfalso; eapply N; reflexivity].
  assert (t10 = [] /\ l0 = l) as [-> ->] by (unfold pret in E; split; congruence).
  assert (T3 : t3 = []) by (unfold plift in X3; congruence).
  assert (T5 : forall x, ~ In (AListTests x) t5).
  { unfold p_build in X5. intros x.
    apply pbind_inv in X5 as [(n1 & u1 & u2 & b & Y1 & X5 & ->)|(r1 & _ & _ & N & _)]; [|exfalso; eapply N; reflexivity].
    destruct b as [c [[md td] env]]. cbn [snd] in X5.
    apply pbind_inv in X5 as [(n3 & u3 & u4 & b & Y3 & X5 & ->)|(r1 & _ & _ & N & _)]; [|exfalso; eapply N; reflexivity].
    injection Y3 as <- <-. assert (u1 = []) as -> by (unfold plift in Y1; congruence).
    assert (u4 = []) as ->.
    { unfold perr in X5. destruct (w_build _ _) as [[[|] ms]|]; [unfold plift in X5; congruence| |discriminate X5].
      apply pbind_inv in X5 as [(n5 & u5 & u6 & v & Y5 & X5 & ->)|(r1 & _ & _ & N & _)]; [discriminate X5|exfalso; eapply N; reflexivity]. }
    intros [K|[]]. discriminate. }
  assert (T9 : forall x, ~ In (AListTests x) t9).
  { unfold p_versions in X9. intros x.
    apply pbind_inv in X9 as [(n1 & u1 & u2 & b & Y1 & X9 & ->)|(r1 & _ & _ & N & _)]; [|exfalso; eapply N; reflexivity].
    apply pfor_acts in Y1 as [-> _].
    assert (u2 = []) as -> by (unfold perr, plift, pret in X9; destruct (snd _); congruence).
    rewrite app_nil_r, in_map_iff. intros (? & K & _). discriminate. }
  apply targets_ok in X7 as (l1 & M & -> & L0). rewrite T3. cbn [app]. split.
  - apply ch_other; [discriminate|]. apply chosen_other; [exact T5|].
    rewrite app_nil_r. apply chosen_none with (w := w) (o := o) in T9. pose proof (chosen_listing w o xs l1 t9 [] M T9) as C.
    rewrite app_nil_r in C. enough (flat l = flat_map (fun et => map (fun t => (fst et, t)) (match o_ztarget o with Some pat => filter_targets (o_exact o) pat (snd et) | None => snd et end)) l1) as -> by exact C.
    rewrite L0. destruct (o_ztarget o) as [pat|]; [apply nonempty_filter|apply flat_nonempty].
  - intros x ts I. rewrite L0 in I. destruct (o_ztarget o) as [pat|].
    + clear - I. induction (List.filter _ l1) as [|[y us] l2 IH]; [destruct I|]. cbn [filter_executable_targets] in I.
      destruct (filter_targets (o_exact o) pat us) as [|u us']; [exact (IH I)|]. destruct I as [I|I]; [|exact (IH I)]. now injection I as _ <-.
    + apply filter_In in I as [_ I]. cbn [snd] in I. destruct ts; [discriminate I|discriminate].
Qed.

(** ** Phases that crash *)

Definition panics {A} (P : list act -> Prop) (p : phase A) : Prop := forall m m' t, p m = (m', t, RPanic) -> P t.

Lemma pbind_panic {A B} (x : phase A) (f : A -> phase B) m m' t : pbind x f m = (m', t, RPanic) ->
  x m = (m', t, RPanic) \/ exists m1 t1 t2 a, x m = (m1, t1, ROk a) /\ f a m1 = (m', t2, RPanic) /\ t = t1 ++ t2.
Proof.
  unfold pbind. destruct (x m) as [[m1 t1] [a|e| |n|]]; try discriminate.
  - destruct (f a m1) as [[m2 t2] r] eqn:F. intros E. assert (r = RPanic /\ m2 = m' /\ t = t1 ++ t2) as (-> & -> & ->) by (repeat split; congruence).
    right. exists m1, t1, t2, a. auto.
  - intros E. left. congruence.
Qed.

Section Comb.
  Variable P : list act -> Prop.
  Hypothesis close : forall t t', P t -> P (t' ++ t).
  Lemma panics_bind {A B} (x : phase A) (f : A -> phase B) : panics P x -> (forall a, panics P (f a)) -> panics P (pbind x f).
  Proof. intros X F m m' t E. apply pbind_panic in E as [E|(m1 & t1 & t2 & a & _ & E & ->)]; [exact (X _ _ _ E)|]. apply close. exact (F a _ _ _ E). Qed.
  Lemma panics_bind_lift {A B} (x : outcome A) (f : A -> phase B) : (x = Panic -> P []) -> (forall a, x = Ret a -> panics P (f a)) -> panics P (pbind (plift x) f).
  Proof.
    intros X F m m' t E. apply pbind_panic in E as [E|(m1 & t1 & t2 & a & E1 & E & ->)].
    - unfold plift in E. destruct x; try discriminate E. assert (t = []) as -> by congruence. now apply X.
    - unfold plift in E1. destruct x as [b|e|]; try discriminate E1. assert (t1 = [] /\ b = a) as [-> ->] by (split; congruence). exact (F a eq_refl _ _ _ E).
  Qed.
  Lemma panics_ret {A} (a : A) : panics P (pret a). Proof. intros m m' t E. discriminate E. Qed.
  Lemma panics_err {A} e : panics P (@perr A e). Proof. intros m m' t E. discriminate E. Qed.
  Lemma panics_act a : panics P (pact a). Proof. intros m m' t E. discriminate E. Qed.
  Lemma panics_lift {A} (x : outcome A) : (x = Panic -> P []) -> panics P (plift x).
  Proof. intros X m m' t E. unfold plift in E. destruct x; try discriminate E. assert (t = []) as -> by congruence. now apply X. Qed.
  Lemma panics_for {A} (f : A -> phase unit) l : (forall a, In a l -> panics P (f a)) -> panics P (pfor f l).
  Proof.
    induction l as [|a l IH]; intros H; [apply panics_ret|]. cbn [pfor]. apply panics_bind; [apply H; now left|intros _].
    apply IH. intros b I. apply H. now right.
  Qed.
End Comb.

(** ** After the preparation *)

Inductive trouble (w : world) (o : opts) (l : list (executable * str)) (t : list act) : Prop :=
| tr_consolidate t1 : t = t1 ++ [AConsolidate] -> o_consolidate o = true -> o_consolidate_all o = false -> List.length l <> 1 -> trouble w o l t
| tr_reset t1 : t = t1 ++ [AReset] -> o_reset_all o = false -> o_consolidate_all o || o_consolidate o || o_reset o = true -> List.length l <> 1 -> trouble w o l t
| tr_heading x tg n : 2 <= List.length l -> In (x, tg) l -> w_width w = Some n -> n <= List.length tg + 1 -> ~ is_ascii tg -> trouble w o l t
| tr_cpus t1 att ns : t = t1 ++ [AGenerate att ns] -> o_cpus o = None -> w_cpus w = 0 -> trouble w o l t
| tr_timeout t1 a n : t = t1 ++ [a] -> (exists att ns, a = AGenerate att ns) \/ (exists s, a = ACpus s) ->
    o_timeout o = Some n -> (2 ^ 64 <= n * 1000)%N -> w_checks w = true -> trouble w o l t
| tr_session t1 os k : t = t1 ++ [AParallel os] -> Sched.k_names k = map snd l -> Sched.k_no_ui k = o_no_ui o -> 0 < Sched.k_cpus k <= w_cpus w ->
    Sched.run (w_strip w) k (Sched.s_init k) (w_session w) = (Sched.Finished Panic, os) ->
    derailed (w_strip w) k (w_session w) -> trouble w o l t.

Lemma trouble_prefix w o l t t' : trouble w o l t -> trouble w o l (t' ++ t).
Proof.
  intros H. inversion H; subst; rewrite ?app_assoc;
    [eapply tr_consolidate|eapply tr_reset|eapply tr_heading|eapply tr_cpus|eapply tr_timeout|eapply tr_session]; eauto.
Qed.

Lemma for_each_panic {A} (f : A -> fs -> Consolidate.res) l : forall m m' h,
  Consolidate.for_each f l m = (m', h, Panic) -> exists a m1 m2 h2, In a l /\ f a m1 = (m2, h2, Panic).
Proof.
  induction l as [|a l IH]; intros m m' h; cbn [Consolidate.for_each]; [discriminate|].
  unfold Consolidate.seq. destruct (f a m) as [[m1 h1] [u|e'|]] eqn:F.
  - destruct (Consolidate.for_each f l m1) as [[m2 h2] o2] eqn:G. intros E. assert (o2 = Panic) by congruence. subst o2.
    destruct (IH _ _ _ G) as (b & n1 & n2 & k & I & B). exists b, n1, n2, k. split; [now right|exact B].
  - discriminate.
  - intros _. exists a, m, m1, h1. split; [now left|exact F].
Qed.

Lemma check_panic b f m m' h : Consolidate.check b f m = (m', h, Panic) -> b = false \/ (b = true /\ f m = (m', h, Panic)).
Proof. unfold Consolidate.check. destruct b; auto. Qed.

Lemma flat_length_one (l : list (executable * list str)) : (forall x ts, In (x, ts) l -> ts <> []) ->
  List.length (flat l) = 1 -> List.length l = 1 /\ forall x ts, In (x, ts) l -> List.length ts = 1.
Proof.
  intros N L. destruct l as [|[x ts] l]; [discriminate L|]. unfold flat in L. cbn [flat_map fst snd] in L. rewrite app_length, map_length in L.
  destruct ts as [|tg ts]; [exfalso; apply (N x []); [now left|reflexivity]|]. cbn [List.length] in L.
  destruct l as [|[y us] l].
  - cbn in L. split; [reflexivity|]. intros y us [I|[]]. injection I as <- <-. cbn [List.length]. lia.
  - cbn [flat_map fst snd] in L. rewrite app_length, map_length in L. destruct us as [|u us]; [exfalso; apply (N y []); [right; now left|reflexivity]|].
    cbn [List.length] in L. lia.
Qed.

Lemma clear_panic (f : str -> str -> fs -> Consolidate.res) (l : list (executable * list str)) (b : bool) m m' h :
  (forall x ts, In (x, ts) l -> ts <> []) -> (forall k tg m m' h, f k tg m <> (m', h, Panic)) ->
  Consolidate.check (b || (List.length (by_name l) =? 1))
    (Consolidate.for_each (fun et => Consolidate.check (b || (List.length (snd et) =? 1)) (Consolidate.for_each (f (fst et)) (snd et))) (by_name l)) m = (m', h, Panic) ->
  b = false /\ List.length (flat l) <> 1.
Proof.
  intros NE NP E. split.
  - destruct b; [|reflexivity]. exfalso. cbn [orb] in E. apply check_panic in E as [E|[_ E]]; [discriminate E|].
    apply for_each_panic in E as (et & m1 & m2 & h2 & _ & E). apply check_panic in E as [E|[_ E]]; [discriminate E|].
    apply for_each_panic in E as (tg & m3 & m4 & h4 & _ & E). exact (NP _ _ _ _ _ E).
  - intros L. destruct (flat_length_one l NE L) as [L1 L2].
    assert (LB : List.length (by_name l) = 1) by (unfold by_name; now rewrite map_length).
    rewrite LB, Nat.eqb_refl, orb_true_r in E. apply check_panic in E as [E|[_ E]]; [discriminate E|].
    apply for_each_panic in E as (et & m1 & m2 & h2 & I & E). unfold by_name in I. apply in_map_iff in I as ([x ts] & <- & I). cbn [fst snd] in E.
    rewrite (L2 x ts I), Nat.eqb_refl, orb_true_r in E. apply check_panic in E as [E|[_ E]]; [discriminate E|].
    apply for_each_panic in E as (tg & m3 & m4 & h4 & _ & E). exact (NP _ _ _ _ _ E).
Qed.

Section After.
  Variables (w : world) (o : opts) (l : list (executable * list str)).
  Hypothesis NE : forall x ts, In (x, ts) l -> ts <> [].
  Hypothesis ST : Ui.streaming (w_strip w).
  Let td := q_td (w_cargo w).
  Let tp := trouble_prefix w o (flat l).

  Lemma cons_target_no_panic k tg m m' h : Consolidate.cons_target (w_io w) td (w_id w) k tg m <> (m', h, Panic).
  Proof.
    unfold Consolidate.cons_target, Consolidate.with_dir, output_subdir. rewrite !dir_from_target_eq. cbn [bind].
    intros E. apply for_each_panic in E as (d & m1 & m2 & h2 & _ & E). unfold Consolidate.cons_dir in E.
    destruct (Consolidate.i_ls _ _ _) as [ns|]; [|discriminate E]. apply for_each_panic in E as (n & m3 & m4 & h4 & _ & E).
    unfold Consolidate.cons_entry in E. destruct n as [n|]; [|discriminate E]. destruct (Consolidate.skipped n); [discriminate E|].
    destruct (Consolidate.i_rd _ _ _); [|discriminate E]. destruct (Consolidate.i_wr _ _ _ _); [discriminate E|]. destruct (write_data _ _ _) as [? [|]]; discriminate E.
  Qed.

  Lemma reset_target_no_panic k tg m m' h : Consolidate.reset_target (w_io w) td (w_id w) k tg m <> (m', h, Panic).
  Proof.
    unfold Consolidate.reset_target, Consolidate.with_dir. rewrite dir_from_target_eq. destruct (exists_ m _); [|discriminate].
    destruct (Consolidate.i_rm _ _ _); [discriminate|]. destruct (remove_dir_all _ _); discriminate.
  Qed.

  Lemma io_panics (P : list act -> Prop) (a : act) (f : fs -> Consolidate.res) : (forall m m' h, f m = (m', h, Panic) -> P [a]) -> panics P (p_io a f).
  Proof.
    intros H m m' t E. unfold p_io in E. destruct (f m) as [[m1 h] [u|e|]] eqn:F; try discriminate E.
    assert (t = [a]) as -> by congruence. exact (H _ _ _ F).
  Qed.

  Lemma clear_panics c : (c = true -> o_consolidate_all o = false -> o_consolidate o = true) ->
    o_consolidate_all o || o_reset_all o || o_consolidate o || o_reset o = true ->
    panics (trouble w o (flat l)) (p_clear w o c l).
  Proof.
    intros HC HA. unfold p_clear. apply panics_bind; [exact tp| |intros _].
    - destruct c; [|apply panics_ret]. apply io_panics. intros m m' h E.
      apply clear_panic in E as [B L]; [|exact NE|intros; apply cons_target_no_panic].
      apply (tr_consolidate w o (flat l) [AConsolidate] []); auto.
    - apply io_panics. intros m m' h E. apply clear_panic in E as [B L]; [|exact NE|intros; apply reset_target_no_panic].
      apply (tr_reset w o (flat l) [AReset] []); auto. rewrite B in HA. destruct (o_consolidate_all o), (o_consolidate o), (o_reset o); auto.
  Qed.

  Lemma show_panics : panics (trouble w o (flat l)) (p_show w o l).
  Proof.
    unfold p_show. cbv zeta. apply panics_bind; [exact tp| |intros _].
    { destruct (is_some _); [|apply panics_ret]. apply panics_bind; [exact tp|apply panics_act|intros _]. destruct (w_clean w); [apply panics_ret|apply panics_err]. }
    apply panics_bind_lift. { unfold flatten_executable_targets. destruct (flat_map _ l); discriminate. }
    intros fl FL. assert (EF : fl = flat l). { unfold flatten_executable_targets in FL. unfold flat. destruct (flat_map _ l); congruence. }
    subst fl. apply panics_bind; [exact tp| |intros _].
    - apply panics_for; [exact tp|]. intros [x tg] I. cbn [fst snd]. apply panics_bind; [exact tp| |intros _].
      + unfold p_heading. destruct (1 <? List.length (flat l)) eqn:ML; [|apply panics_ret]. apply Nat.ltb_lt in ML.
        apply panics_bind_lift; [|intros; apply panics_act]. intros D.
        assert (K : exists n, w_width w = Some n /\ n <= List.length tg + 1 /\ ~ is_ascii tg).
        { assert (AP : is_ascii tg -> is_ascii (tg ++ lit " ")).
          { intros A. unfold is_ascii. apply List.Forall_app. split; [exact A|]. repeat constructor. }
          unfold Ui.divider_with_width in D. cbv zeta in D. rewrite app_length in D. change (List.length (lit " ")) with 1 in D.
          destruct (w_width w) as [n|].
          - destruct (n <=? _) eqn:L; [|discriminate D]. apply Nat.leb_le in L. exists n. split; [reflexivity|]. split; [exact L|].
            intros A. apply AP in A. destruct (Ui.prefix_ascii (w_strip w) ST _ n A) as [p Q]. congruence.
          - destruct (_ <=? _) eqn:L; [|discriminate D]. apply Nat.leb_le in L. lia. }
        destruct K as (n & W & L & A). exact (tr_heading w o _ _ x tg n ML I W L A).
      + unfold p_entries. destruct (chosen_object o) as [b|]; [|apply panics_ret].
        apply panics_bind_lift. { unfold Entries.flags_and_dir, output_subdir. destruct b; rewrite dir_from_target_eq; discriminate. }
        intros [[rct raw] dir] _. cbv zeta. cbn [fst snd]. apply panics_bind; [exact tp|apply panics_act|intros _].
        apply panics_lift. intros R. exfalso. destruct (Entries.for_each_entry dir o tg rct raw (w_eio w x tg)) as [es r] eqn:F. cbn [snd] in R. subst r.
        apply Entries.for_each_entry_spec in F as [(_ & _ & F)|[(_ & _ & _ & F)|(d & rest & rs & _ & _ & _ & _ & F)]]; [discriminate F|discriminate F|exact F].
    - destruct (is_some _); [|apply panics_ret]. unfold p_report. destruct (w_lcov w) as [lc|]; [|apply panics_err].
      apply panics_bind; [exact tp|destruct lc; [apply panics_act|apply panics_ret]|intros _].
      apply panics_bind; [exact tp|apply panics_act|intros _]. destruct (w_report w _); [apply panics_act|apply panics_err].
  Qed.

  Lemma args_panic checks c x tg : fuzz_args checks o c td (w_id w) x tg = Panic ->
    exists n, o_timeout o = Some n /\ (2 ^ 64 <= n * 1000)%N /\ checks = true.
  Proof.
    unfold fuzz_args. rewrite !dir_from_target_eq. intros E.
    assert (T : (match o_timeout o with Some t => bind (mul64 checks t millis_per_sec) (fun ms => Ret [lit "-t"; dec ms]) | None => Ret [] end) = Panic).
    { destruct (_ || _); cbn [bind] in E;
        (destruct (match o_timeout o with Some t => bind (mul64 checks t millis_per_sec) (fun ms => Ret [lit "-t"; dec ms]) | None => Ret [] end); cbn [bind] in E; congruence). }
    destruct (o_timeout o) as [n|]; [|discriminate T]. exists n. split; [reflexivity|]. unfold mul64 in T.
    change millis_per_sec with 1000%N in T. destruct (n * 1000 <? 2 ^ 64)%N eqn:L; [discriminate T|]. apply N.ltb_ge in L.
    split; [exact L|]. destruct checks; [reflexivity|discriminate T].
  Qed.

  Lemma fuzz_panics : o_coverage o = None -> flat l <> [] -> panics (trouble w o (flat l)) (p_fuzz w o (flat l)).
  Proof.
    intros CV NF m m' t E. unfold p_fuzz in E. rewrite CV in E. cbn [is_some] in E. cbv zeta in E.
    apply pbind_panic in E as [E|(m1 & t1 & t2 & u & E1 & E & ->)].
    { destruct (auto_generate_corpora _ _ _ _ _) as [[[m1 att] ns] [u|e|]] eqn:G; try discriminate E. exfalso.
      unfold auto_generate_corpora in G. destruct (autogen_loop _ _ _ _ _) as [[[m2 a2] n2] errs]. assert (K : match errs with [] => Ret tt | _ :: _ => Err ([LF] ++ join [LF] (map (fun e => snd (snd e)) errs)) end = Panic) by now inversion G.
      destruct errs; discriminate K. }
    assert (G1 : exists att ns, t1 = [AGenerate att ns]).
    { destruct (auto_generate_corpora _ _ _ _ _) as [[[m2 att] ns] [v|e|]] eqn:G; try discriminate E1. exists att, ns. congruence. }
    destruct G1 as (att & ns & ->). clear E1.
    apply pbind_panic in E as [E|(m3 & t3 & t4 & p & E1 & E & ->)].
    { assert (t2 = [] /\ fuzz_plan (w_cpus w) o (List.length (flat l)) = Panic) as [-> FP].
      { unfold plift in E. destruct (fuzz_plan _ _ _); try discriminate E. split; congruence. }
      unfold fuzz_plan in FP. rewrite CV in FP. cbn [is_some] in FP. destruct (_ && _); [discriminate FP|].
      destruct (o_cpus o) as [n|] eqn:Cp; [|destruct (w_cpus w) as [|n] eqn:W; [now apply (tr_cpus w o _ _ [] att ns)|]];
        cbn [bind] in FP; (destruct (negb _); [discriminate FP|]; destruct (_ && _); discriminate FP). }
    assert (t3 = [] /\ fuzz_plan (w_cpus w) o (List.length (flat l)) = Ret p) as [-> FP].
    { unfold plift in E1. destruct (fuzz_plan _ _ _); try discriminate E1. split; congruence. }
    cbn [app]. clear E1. destruct p as [|n].
    - destruct (map _ (flat l)) as [|[x tg] xts]; [discriminate E|].
      apply pbind_panic in E as [E|(m5 & t5 & t6 & args & E1 & E & ->)].
      + unfold plift in E. destruct (fuzz_args _ _ _ _ _ _ _) eqn:FA; try discriminate E. assert (t4 = []) as -> by congruence.
        apply args_panic in FA as (k & T & L & C). apply (tr_timeout w o _ _ [] (AGenerate att ns) k); eauto.
      + exfalso. apply pbind_panic in E as [E|(m7 & t7 & t8 & v & _ & E & _)]; [discriminate E|]. destruct (w_foreground w); discriminate E.
    - apply pbind_panic in E as [E|(m5 & t5 & t6 & v & E1 & E & ->)]; [destruct (_ <=? _); discriminate E|].
      assert (T5 : t5 = [] \/ exists s, t5 = [ACpus s]).
      { destruct (_ <=? _) in E1; [left; unfold pret in E1; congruence|right; unfold pact in E1; eexists; injection E1 as _ <- _; reflexivity]. }
      apply pbind_panic in E as [E|(m7 & t7 & t8 & v2 & E2 & E & ->)].
      + unfold plift in E. destruct (mapM _ _) as [ll|e|] eqn:M; try discriminate E. assert (t6 = []) as -> by congruence.
        assert (FA : exists c x tg, fuzz_args (w_checks w) o c td (w_id w) x tg = Panic).
        { destruct (map _ (flat l)) as [|[x tg] xts]; [discriminate M|]. cbn [firstn mapM fst snd] in M.
          match type of M with context [bind ?q _] => destruct q as [aa|e|] eqn:FA end; try discriminate M. eauto. }
        destruct FA as (c & x & tg & FA). apply args_panic in FA as (k & T & L & C). rewrite app_nil_r.
        destruct T5 as [->|(s & ->)].
        * apply (tr_timeout w o _ _ [] (AGenerate att ns) k); eauto.
        * apply (tr_timeout w o _ _ [AGenerate att ns] (ACpus s) k); eauto.
      + assert (t7 = []) as -> by (unfold plift in E2; congruence). cbn [app].
        set (k := {| Sched.k_names := _ |}) in E.
        destruct (Sched.run (w_strip w) k (Sched.s_init k) (w_session w)) as [res os] eqn:R. cbn [fst snd] in E.
        apply pbind_panic in E as [E|(m9 & t9 & t10 & v3 & E3 & E & ->)]; [discriminate E|].
        assert (t9 = [AParallel os]) as -> by (unfold pact in E3; congruence).
        destruct res as [s|oc|]; try discriminate E. unfold plift in E. destruct oc; try discriminate E. assert (t10 = []) as -> by congruence.
        assert (C : 0 < n <= w_cpus w).
        { unfold fuzz_plan in FP. rewrite CV in FP. cbn [is_some] in FP. destruct (_ && _); [discriminate FP|].
          destruct (match o_cpus o with Some n0 => Ret n0 | None => match w_cpus w with 0 => Panic | S n0 => Ret n0 end end) as [kk|e|]; try discriminate FP. cbn [bind] in FP.
          destruct (1 <=? Nat.min kk (w_cpus w)) eqn:E1'; cbn [negb] in FP; [|discriminate FP]. apply Nat.leb_le in E1'.
          destruct (_ && _); [discriminate FP|]. assert (Nat.min kk (w_cpus w) = n) by congruence. lia. }
        apply (tr_session w o _ _ (AGenerate att ns :: t5) os k); auto.
        apply (session_panic _ _ _ os); [exact (proj1 C)|exact ST|exact R].
  Qed.

  Lemma dispatch_panics : panics (trouble w o (flat l)) (dispatch w o l).
  Proof.
    unfold dispatch. destruct (o_list o); [apply panics_act|]. destruct (o_no_run o); [apply panics_ret|].
    destruct (o_consolidate_all o || o_reset_all o) eqn:A.
    { apply clear_panics; [intros -> C; discriminate C|now rewrite A]. }
    destruct (o_consolidate o || o_reset o) eqn:B.
    { apply clear_panics; [auto|]. rewrite <- !orb_assoc, B, !orb_true_r. reflexivity. }
    destruct (is_some (o_coverage o) || _ || _) eqn:S0; [apply show_panics|].
    apply orb_false_iff in S0 as [S0 _]. apply orb_false_iff in S0 as [S0 _].
    apply panics_bind_lift. { unfold flatten_executable_targets. destruct (flat_map _ l); discriminate. }
    intros fl FL. assert (EF : fl = flat l /\ fl <> []). { unfold flatten_executable_targets in FL. unfold flat. destruct (flat_map _ l); [discriminate FL|]. split; congruence. }
    destruct EF as [-> N]. apply fuzz_panics; [|exact N]. destruct (o_coverage o); [discriminate S0|reflexivity].
  Qed.
End After.

(** ** The preparation *)

Lemma tells_exact w v : cached_cargo_afl_version (w_parse w) (w_afl w) = Ret v <-> tells_version w v.
Proof.
  unfold tells_version. destruct (w_afl w) as [out|].
  - rewrite C75_version_exact. split.
    + intros (a & word & b & H). exists out, a, word, b. auto.
    + intros (out' & a & word & b & [= <-] & H). exists a, word, b. exact H.
  - split; [discriminate|]. intros (out & a & word & b & H & _). discriminate H.
Qed.

Lemma split_once_some c s : In c s -> exists k v, split_once c s = Some (k, v).
Proof.
  induction s as [|a s IH]; intros I; [destruct I|]. cbn [split_once]. destruct (ascii_dec a c) as [E|N]; [eauto|].
  destruct I as [I|I]; [contradiction|]. destruct (IH I) as (k & v & ->). eauto.
Qed.

Lemma mapM_panic {A B} (f : A -> outcome B) l : (forall a e, f a <> Err e) -> mapM f l = Panic <-> exists a, In a l /\ f a = Panic.
Proof.
  intros N. induction l as [|a l IH]; cbn [mapM].
  - split; [discriminate|]. intros (a & [] & _).
  - destruct (f a) as [b|e|] eqn:F; cbn [bind].
    + destruct (mapM f l) as [bs|e|] eqn:M; cbn [bind].
      * split; [discriminate|]. intros (a' & [<-|I] & K); [congruence|]. exfalso. assert (Ret bs = Panic) by (apply IH; eauto). discriminate.
      * exfalso. exact (mapM_no_err f l N e M).
      * split; [|reflexivity]. intros _. destruct (proj1 IH eq_refl) as (a' & I & K). exists a'. split; [now right|exact K].
    + destruct (N a e F).
    + split; [|reflexivity]. intros _. exists a. split; [now left|exact F].
Qed.

Lemma prepare_panic q o : prepare q no_caches o = Panic <->
  q_md q (o_no_default_features o) (o_features o ++ [lit "test-fuzz/__persistent"]) (o_manifest_path o) = None \/ q_here q = false \/
  (o_coverage o <> None /\
   (q_env q = None \/ exists b, q_env q = Some b /\ (valid_utf8 b = false \/ exists l, In l (lines b) /\ ~ In "="%char l))).
Proof.
  unfold prepare, no_caches, get_or_init, own_metadata, own_llvm_envs, asked_target_directory. cbn [c_md c_td c_llvm]. rewrite own_target_directory_eq.
  destruct (q_md _ _ _ _) as [md|]; cbn [bind]; [|split; [now left|reflexivity]].
  destruct (q_here q); cbn [bind]; [|split; [auto|reflexivity]].
  destruct (o_coverage o) as [b|]; cbn [is_some negb bind].
  2:{ split; [discriminate|]. intros [K|[K|[K _]]]; [discriminate K|discriminate K|contradiction]. }
  destruct (q_env q) as [out|]; cbn [bind].
  2:{ split; [|reflexivity]. intros _. right. right. split; [discriminate|now left]. }
  destruct (valid_utf8 out) eqn:V; cbn [bind].
  2:{ split; [|reflexivity]. intros _. right. right. split; [discriminate|]. right. exists out. auto. }
  assert (N : forall mt td a e, env_of_line mt td a <> Err e) by (intros mt td a e; unfold env_of_line; destruct (split_once _ a) as [[k v]|]; discriminate).
  assert (P : forall mt td a, env_of_line mt td a = Panic <-> ~ In "="%char a).
  { intros mt td a. unfold env_of_line. destruct (in_dec ascii_dec "="%char a) as [I|I].
    - destruct (split_once_some _ _ I) as (k & v & ->). split; [discriminate|contradiction].
    - now rewrite (split_once_none _ _ I). }
  match goal with |- bind ?x _ = _ <-> _ => assert (M : x = Panic <-> exists l, In l (lines out) /\ ~ In "="%char l) end.
  { rewrite mapM_panic by apply N. split; intros (l & I & K); exists l; (split; [exact I|]); [now apply P in K|now apply P]. }
  match goal with |- bind ?x _ = _ <-> _ => destruct x as [ll|e|] eqn:X end; cbn [bind].
  - split; [discriminate|]. intros [K|[K|(_ & [K|(b0 & [= <-] & [K|K])])]]; try congruence. apply M in K. discriminate K.
  - exfalso. exact (mapM_no_err _ _ (N _ _) _ X).
  - split; [|reflexivity]. intros _. right. right. split; [discriminate|]. right. exists out. split; [reflexivity|]. right. now apply M.
Qed.

Lemma executables_no_panic md ms : executables md ms <> Panic.
Proof.
  induction ms as [|x ms IH]; cbn [executables]; [discriminate|]. destruct x as [id name [|] [exe|]|s|]; try exact IH.
  destruct (test_fuzz_and_afl_versions md id) as [v|e|] eqn:V; cbn [bind]; [|discriminate|].
  - destruct (executables md ms) as [ll|e|]; cbn [bind]; congruence.
  - exfalso. exact (proj1 (C68_error_exact md id) V).
Qed.

Lemma targets_no_panic out : targets out <> Panic.
Proof.
  unfold targets. induction (split_inclusive out) as [|p ps IH]; cbn [targets_loop]; [discriminate|].
  destruct (valid_utf8 p); [|discriminate]. destruct (target_of_line (chomp p)); [|exact IH].
  destruct (targets_loop ps); cbn [bind]; congruence.
Qed.

Lemma prepare_crash w o m m' t : p_prepare w o m = (m', t, RPanic) ->
  t = [AVersion] /\ ((forall v, ~ tells_version w v) \/ no_metadata w o \/ no_environment w o).
Proof.
  intros E. unfold p_prepare in E.
  apply pbind_panic in E as [E|(m1 & t1 & t2 & u & E1 & E & ->)]; [discriminate E|]. assert (t1 = [AVersion]) as -> by (unfold pact in E1; congruence).
  apply pbind_panic in E as [E|(m3 & t3 & t4 & afl & E3 & E & ->)].
  { unfold plift in E. destruct (cached_cargo_afl_version _ _) as [v|e|] eqn:C; try discriminate E. assert (t2 = []) as -> by congruence.
    split; [reflexivity|]. left. intros v K. apply tells_exact in K. congruence. }
  assert (t3 = []) as -> by (unfold plift in E3; congruence).
  apply pbind_panic in E as [E|(m5 & t5 & t6 & xs & E5 & E & ->)].
  { unfold p_build in E. apply pbind_panic in E as [E|(m5 & t5 & t6 & r & E5 & E & ->)].
    - unfold plift in E. destruct (prepare _ _ _) as [v|e|] eqn:P; try discriminate E. assert (t4 = []) as -> by congruence.
      split; [reflexivity|]. unfold no_metadata. apply prepare_panic in P as [P|[P|P]]; auto.
    - exfalso. destruct r as [c [[md td] env]]. cbn [snd] in E. apply pbind_panic in E as [E|(m7 & t7 & t8 & v & _ & E & _)]; [discriminate E|].
      destruct (w_build w _) as [[[|] ms]|]; [| |discriminate E].
      + unfold plift in E. destruct (executables _ ms) eqn:X; try discriminate E. exact (executables_no_panic _ _ X).
      + apply pbind_panic in E as [E|(m9 & t9 & t10 & v' & _ & E & _)]; [|discriminate E].
        rewrite PropsRun4.pfor_compiler in E. discriminate E. }
  exfalso. apply pbind_panic in E as [E|(m7 & t7 & t8 & ll & E7 & E & ->)].
  { revert E. unfold p_targets. generalize t6 as tt6, m' as mm. intros tt6 mm E. refine (panics_bind (fun _ => False) _ _ _ _ _ _ _ _ E).
    - auto.
    - clear. induction xs as [|x xs IH]; [apply panics_ret|]. cbn [pmap]. apply panics_bind; [auto| |intros b].
      + apply panics_bind; [auto|apply panics_act|intros _]. apply panics_bind_lift; [intros K; exact (targets_no_panic _ K)|intros; apply panics_ret].
      + apply panics_bind; [auto|exact IH|intros; apply panics_ret].
    - intros a. apply panics_ret. }
  apply pbind_panic in E as [E|(m9 & t9 & t10 & u9 & _ & E & _)]; [|discriminate E].
  unfold p_versions in E. cbv zeta in E. apply pbind_panic in E as [E|(m9 & t9 & t10 & u9 & _ & E & _)].
  - apply pfor_acts in E as [_ E]. discriminate E.
  - destruct (snd _) in E; discriminate E.
Qed.

Lemma selected_adjust o tg : selected (adjust o) tg <-> selected o tg.
Proof. pose proof (adjust_same o) as (_ & _ & _ & _ & _ & _ & _ & _ & _ & _ & A1 & A2 & _). unfold selected. now rewrite A1, A2. Qed.

Lemma chosen_adjust w o t l : chosen w (adjust o) t l -> chosen w o t l.
Proof.
  intros C. induction C as [|x ts us t l T P C IH|a t l N C IH]; [constructor| |now constructor].
  apply (ch_list w o x ts); [exact T| |exact IH]. clear - P. induction P as [|tg ts us S P IH|tg ts us S P IH]; constructor; try exact IH; [|intros K; apply S]; now apply selected_adjust.
Qed.

Lemma adjust_more o : o_cpus (adjust o) = o_cpus o /\ o_timeout (adjust o) = o_timeout o /\ o_no_default_features (adjust o) = o_no_default_features o /\
  o_features (adjust o) = o_features o /\ o_manifest_path (adjust o) = o_manifest_path o /\ o_no_ui (adjust o) = (o_no_ui o || o_exit_code o)%bool.
Proof. unfold adjust. destruct (o_exit_code o) eqn:E; cbn; rewrite ?orb_true_r, ?orb_false_r; repeat split; reflexivity. Qed.

(** * Theorems *)

(** C105: an invocation crashes only in these situations: cargo-afl, cargo or cargo-llvm-cov do not
    give the information that is needed; consolidating or resetting without [-all] does not concern
    exactly one target; a target whose name is not ASCII does not fit the terminal; there are no
    processors; the timeout overflows; or the session of parallel fuzzing went wrong. *)
Theorem C105_crash_cause :
  forall (w : world) (o : opts) (m m' : fs) (t : list act),
    Ui.streaming (w_strip w) -> run w o m = (m', t, RPanic) -> crash w o t.
Proof.
  intros w o m m' t ST E. apply run_eq in E as (r0 & E & R).
  assert (r0 = RPanic) as -> by (destruct r0; try destruct (o_exit_code o); congruence). clear R.
  pose proof (adjust_same o) as (A1 & A2 & A3 & A4 & A5 & A6 & A7 & A8 & A9 & A10 & A11 & A12 & _).
  pose proof (adjust_more o) as (B1 & B2 & B3 & B4 & B5 & B6).
  apply run_inv in E as [(b & _ & _ & _ & _ & K)|[(b & _ & _ & _ & _ & _ & K)|[_ E]]]; try discriminate K.
  apply pbind_panic in E as [E|(m1 & t1 & t2 & l & P & E & ->)].
  - apply prepare_crash in E as [T [H|[H|H]]].
    + now apply k_afl.
    + apply k_metadata; [exact T|]. unfold no_metadata in *. now rewrite B3, B4, B5 in H.
    + apply k_environment; [exact T|]. unfold no_environment in *. now rewrite A1 in H.
  - destruct (prepared _ _ _ _ _ _ P) as [C NE].
    assert (N2 : forall x, ~ In (AListTests x) t2) by (intros x I; exact (dispatch_lists_none w (adjust o) l _ _ _ _ E x I)).
    assert (CC : chosen w o (t1 ++ t2) (flat l)).
    { apply chosen_adjust in C. revert C. generalize (flat l). intros fl C. clear - C N2. induction C as [|x ts us t l T Pk C IH|a t l N C IH]; cbn [app].
      - now apply chosen_none.
      - exact (ch_list w o x ts us _ _ T Pk IH).
      - now constructor. }
    apply (dispatch_panics w (adjust o) l NE ST) in E.
    destruct E as [t3 -> H1 H2 H3|t3 -> H1 H2 H3|x tg n H1 H2 H3 H4 H5|t3 att ns -> H1 H2|t3 a n -> H1 H2 H3 H4|t3 os k -> H1 H2 H3 H4 H5]; rewrite ?app_assoc in *.
    + rewrite A6 in H1. rewrite A7 in H2. exact (k_consolidate w o _ _ _ eq_refl H1 H2 CC H3).
    + rewrite A9 in H1. rewrite A6, A7, A8 in H2. exact (k_reset w o _ _ _ eq_refl H1 H2 CC H3).
    + exact (k_heading w o _ _ x tg n CC H1 H2 H3 H4 H5).
    + rewrite B1 in H1. exact (k_cpus w o _ _ att ns eq_refl H1 H2).
    + rewrite B2 in H2. exact (k_timeout w o _ _ a n eq_refl H1 H2 H3 H4).
    + rewrite B6 in H2. exact (k_session w o _ _ os _ k eq_refl CC H1 H2 H3 H4 H5).
Qed.
Print Assumptions C105_crash_cause.

(** C105: and without the information from cargo-afl, cargo or cargo-llvm-cov it always crashes, at
    once and whatever it was asked for, also with --exit-code. *)
Theorem C105_crash_at_once :
  forall (w : world) (o : opts) (m : fs),
    (forall b, o_coverage o = Some b -> In b [Corpus_; Crashes; Hangs; Queue]) ->
    (forall b, o_replay o = Some b -> b <> GenericArgs_ /\ b <> ImplGenericArgs_) ->
    (forall v, ~ tells_version w v) \/ no_metadata w o \/ no_environment w o ->
    run w o m = (m, [AVersion], RPanic).
Proof.
  intros w o m OC OR H.
  pose proof (adjust_same o) as (A1 & A2 & _). pose proof (adjust_more o) as (_ & _ & B3 & B4 & B5 & _).
  unfold run, run_without_exit_code. rewrite A1, A2.
  assert (PC : p_object (lit "--coverage") coverage_object_ok (o_coverage o) = pret tt).
  { destruct (o_coverage o) as [b|]; [|reflexivity]. cbn [p_object]. destruct (OC b eq_refl) as [<-|[<-|[<-|[<-|[]]]]]; reflexivity. }
  assert (PR : p_object (lit "--replay") replay_object_ok (o_replay o) = pret tt).
  { destruct (o_replay o) as [b|]; [|reflexivity]. cbn [p_object]. destruct (OR b eq_refl). destruct b; congruence || reflexivity. }
  rewrite PC, PR. unfold pbind at 1, pret at 1. unfold pbind at 1, pret at 1. unfold pbind at 1. unfold p_prepare.
  unfold pbind at 1, pact at 1. unfold pbind at 1, plift at 1.
  destruct (cached_cargo_afl_version (w_parse w) (w_afl w)) as [v|e|] eqn:V.
  - unfold pbind at 1, p_build. unfold pbind at 1, plift at 1. destruct H as [H|H].
    { exfalso. apply (H v). now apply tells_exact. }
    assert (P : prepare (w_cargo w) no_caches (adjust o) = Panic).
    { apply prepare_panic. rewrite A1, B3, B4, B5. destruct H as [[H|H]|H]; auto. }
    rewrite P. reflexivity.
  - unfold cached_cargo_afl_version in V. destruct (cargo_afl_version _ _); discriminate V.
  - reflexivity.
Qed.
Print Assumptions C105_crash_at_once.

(** C105: with working tools, names in ASCII and a machine with processors, an invocation that
    neither consolidates nor resets nor fuzzes in parallel does not crash. *)
Theorem C105_no_crash :
  forall (w : world) (o : opts) (m m' : fs) (t : list act) (r : rres unit),
    Ui.streaming (w_strip w) -> (exists v, tells_version w v) -> ~ no_metadata w o -> ~ no_environment w o ->
    (forall x ts, targets (w_listing w x) = Ret ts -> Forall is_ascii ts) -> w_cpus w <> 0 ->
    (forall n, o_timeout o = Some n -> (n * 1000 < 2 ^ 64)%N) ->
    o_consolidate o = false -> o_consolidate_all o = false -> o_reset o = false ->
    run w o m = (m', t, r) -> (forall os, ~ In (AParallel os) t) -> status r <> Some 101.
Proof.
  intros w o m m' t r ST (v & V) NM NV AS NC TO C1 C2 R1 E NP K.
  assert (r = RPanic \/ exists n, r = RExit n) as [->|(n & ->)].
  { destruct r as [u|e| |n|]; cbn [status] in K; try discriminate K; eauto. }
  - apply C105_crash_cause in E; [|exact ST]. destruct E as [_ H|_ H|_ H|t1 l _ H|t1 l _ H1 H2|l x tg n H1 H2 H3 H4 H5 H6|t1 att ns _ H1 H2|t1 a n _ H1 H2 H3|t1 os l k H _].
    + exact (H v V).
    + exact (NM H).
    + exact (NV H).
    + congruence.
    + rewrite C1, C2, R1 in H2. discriminate H2.
    + apply H6. clear - H1 H3 AS. induction H1 as [|y ts us t l T Pk C IH|a t l N C IH]; [destruct H3| |auto].
      apply in_app_iff in H3 as [H3|H3]; [|auto]. apply in_map_iff in H3 as (tg' & Q & I). injection Q as <- ->.
      assert (J : In tg ts). { clear - Pk I. induction Pk as [|u ts us S0 Pk IH|u ts us S0 Pk IH]; [destruct I|destruct I as [->|I]; [now left|right; auto]|right; auto]. }
      specialize (AS y ts T). rewrite List.Forall_forall in AS. auto.
    + congruence.
    + specialize (TO n H2). lia.
    + apply (NP os). rewrite H. apply in_app_iff. right. now left.
  - cbn [status] in K. assert (n = 101) as -> by congruence. apply run_eq in E as (r0 & E & R).
    destruct r0 as [u|e| |n|]; try congruence.
    + destruct (o_exit_code o); congruence.
    + apply PropsRun.inner_exit in E as (-> & _). congruence.
Qed.
Print Assumptions C105_no_crash.

(** One crash of each kind: cargo-afl is not there; cargo's metadata cannot be had, of the package or of the current directory; consolidating two
    targets; a name that is not ASCII; no processors; a timeout that overflows; an event
    of a fuzzer that was never started.  Then the same invocations without the cause. *)
Example C105_example :
  let with_ afl md here cpus width session :=
    let w := PropsRun4.ex_wide (PropsRun4.ex_listing (lit "f") (lit "a" ++ [ascii_of_N 195; ascii_of_N 169])) width in
    {| w_cargo := {| q_md := if (md : bool) then q_md (w_cargo w) else fun _ _ _ => None; q_td := q_td (w_cargo w); q_here := here; q_env := None |};
       w_parse := w_parse w; w_afl := afl; w_terminal := false; w_build := w_build w;
       w_listing := w_listing w; w_self := w_self w; w_show := w_show w; w_id := None; w_io := w_io w; w_width := width; w_clean := true;
       w_eio := w_eio w; w_lcov := Some true; w_report := w_report w; w_gen := fun m _ _ => (m, true); w_cpus := cpus; w_checks := true;
       w_foreground := true; w_strip := fun b => b; w_session := session |} in
  let afl := w_afl (PropsRun4.ex_wide [] None) in
  let fuzz timeout cons :=
    {| o_backtrace := false; o_consolidate := cons; o_consolidate_all := false; o_coverage := None;
     o_cpus := None; o_display := None; o_exact := false; o_exit_code := false; o_list := false;
     o_max_total_time := None; o_no_run := false; o_no_ui := true; o_persistent := false;
     o_pretty := false; o_replay := None; o_reset := false; o_reset_all := false; o_resume := false;
     o_run_until_crash := false; o_slice := 1200%N; o_timeout := timeout;
     o_features := []; o_manifest_path := None; o_no_default_features := false; o_package := None;
     o_release := false; o_test := None; o_verbose := false; o_ztarget := None; o_zzargs := [] |} in
  let show := PropsRun.ex_o (Some Corpus_) None false in
  let dirs : fs := list_to_map (map (fun p => (p, Fs.Dir)) [[lit "t"]; [lit "t"; lit "corpus"]; [lit "t"; lit "corpus"; lit "k::f"];
     [lit "t"; lit "corpus"; lit "k::a" ++ [ascii_of_N 195; ascii_of_N 169]]]) in
  let step evs := {| Sched.in_size := None; Sched.in_spawn := true; Sched.in_poll := Some evs |} in
  let end_ w o := match run w o dirs with (_, t, r) => (List.length t, status r) end in
  end_ (with_ None true true 4 None []) show = (1, Some 101) /\
  end_ (with_ afl false true 4 None []) show = (1, Some 101) /\
  end_ (with_ afl true false 4 None []) show = (1, Some 101) /\
  end_ (with_ afl true true 4 None []) (fuzz None true) = (4, Some 101) /\
  end_ (with_ afl true true 4 (Some 4) []) show = (5, Some 101) /\
  end_ (with_ afl true true 0 None []) (fuzz None false) = (4, Some 101) /\
  end_ (with_ afl true true 4 None []) (fuzz (Some (2 ^ 55)%N) false) = (4, Some 101) /\
  end_ (with_ afl true true 4 None [step []; step []; step [PropsSched.ex_end 7]]) (fuzz None false) = (5, Some 101) /\
  end_ (with_ afl true true 4 (Some 80) []) show = (7, Some 0) /\
  end_ (with_ afl true true 4 None [step []; step []; step [PropsSched.ex_end 1; PropsSched.ex_end 0]; step []]) (fuzz (Some 5%N) false) = (5, Some 0).
Proof. intros. repeat split; vm_compute. all: reflexivity. Qed.
