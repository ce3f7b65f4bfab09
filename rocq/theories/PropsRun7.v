(** C108: what an invocation says about versions. *)
From Coq Require Import String List Ascii Bool Arith NArith Lia.
From stdpp Require Import gmap strings.
From Verif Require Import Base Utf8 Lossy Decimal Env Dirs Opts Targets Semver Sha1 Fs Write Meta FuzzCmd Build AutoGen Run RunFacts PropsSemver PropsBuild PropsMeta PropsRun5 PropsRun6.
From Verif Require Consolidate Entries Sched PropsRun.
Import ListNotations.
Local Open Scope nat_scope.

(** * Specification *)

(** A tool of version [b] is at least what a dependency of version [d] asks for. *)
Definition satisfies (b d : version) : Prop := compatible d b /\ ~ older b d /\ (release b \/ (core_eq d b /\ ~ release d)).

(** It is not refused. *)
Definition fits (b d : version) : Prop := release b -> compatible d b /\ (release d \/ ~ older b d).

(** The line that suggests an upgrade. *)
Definition upgrade (show : version -> str) (name dep : str) (d : version) (tool : str) (b : version) : str :=
  lit "`" ++ name ++ lit "` depends on `" ++ dep ++ lit " " ++ show d ++ lit "`, which is newer than `" ++ tool ++ lit " " ++ show b ++
  lit "`. Consider upgrading with `cargo install " ++ tool ++ lit " --force --version '>=" ++ show d ++ lit "'`.".

(** What is said about one dependency. *)
Inductive advice (show : version -> str) (name dep : str) (tool : str) (b : version) : option version -> list str -> Prop :=
| ad_silent d : satisfies b d -> advice show name dep tool b (Some d) []
| ad_upgrade d : fits b d -> ~ satisfies b d -> advice show name dep tool b (Some d) [upgrade show name dep d tool b].

Definition has_target (w : world) (o : opts) (x : executable) : Prop :=
  exists ts tg, targets (w_listing w x) = Ret ts /\ In tg ts /\ selected o tg.

(** What is said about the executables an invocation that does [t] deals with, in order. *)
Inductive advises (w : world) (o : opts) (afl : version) : list act -> list str -> Prop :=
| as_nil : advises w o afl [] []
| as_about x a b t l : has_target w o x ->
    advice (w_show w) (ex_name x) (lit "test-fuzz") (lit "cargo-test-fuzz") (w_self w) (ex_test_fuzz x) a ->
    advice (w_show w) (ex_name x) (lit "afl") (lit "cargo-afl") afl (ex_afl x) b ->
    advises w o afl t l -> advises w o afl (AListTests x :: t) (a ++ b ++ l)
| as_skip x t l : ~ has_target w o x -> advises w o afl t l -> advises w o afl (AListTests x :: t) l
| as_other a t l : (forall x, a <> AListTests x) -> advises w o afl t l -> advises w o afl (a :: t) l.

(** The hints among what is done, as text. *)
Fixpoint hints (w : world) (t : list act) : list str :=
  match t with
  | [] => []
  | AVersionNote n :: t => vmsg_text (w_show w) n :: hints w t
  | _ :: t => hints w t
  end.

(** What happens before the targets are dealt with. *)
Inductive early_act : act -> Prop :=
| ea_version : early_act AVersion
| ea_build l b : early_act (ABuild l b)
| ea_compiler s : early_act (ACompiler s)
| ea_list x : early_act (AListTests x)
| ea_note n : early_act (AVersionNote n).

(** * Proofs *)

Lemma early_prep a : early_act a <-> prep a.
Proof. unfold prep. split; [intros []; reflexivity|]. destruct a; cbn [act_job]; intros E; try discriminate E; constructor. Qed.

Lemma hints_app w t1 t2 : hints w (t1 ++ t2) = hints w t1 ++ hints w t2.
Proof. induction t1 as [|a t1 IH]; [reflexivity|]. cbn [app]. destruct a; cbn [hints app]; try exact IH. now rewrite IH. Qed.

Lemma hints_none w t : (forall n, ~ In (AVersionNote n) t) -> hints w t = [].
Proof.
  induction t as [|a t IH]; intros N; [reflexivity|]. assert (N' : forall n, ~ In (AVersionNote n) t) by (intros n I; apply (N n); now right).
  destruct a; cbn [hints]; try exact (IH N'). exfalso. apply (N m). now left.
Qed.

Lemma hints_notes w l : hints w (map (fun n => AVersionNote n) l) = map (vmsg_text (w_show w)) l.
Proof. induction l as [|n l IH]; [reflexivity|]. cbn [map hints]. now rewrite IH. Qed.

Lemma satisfies_spec b d : req_matches d b = true <-> satisfies b d.
Proof. rewrite req_matches_spec. unfold satisfies, release. tauto. Qed.

Lemma fits_spec name dep d tool b : accepted (check_dependency_version name dep (Some d) tool b) <-> fits b d.
Proof.
  unfold fits. destruct (v_pre b) as [|i l] eqn:Rb.
  2:{ split; [intros _ R; unfold release in R; congruence|]. intros _. apply C40_prerelease_tool. unfold release. rewrite Rb. discriminate. }
  destruct (v_pre d) as [|i l] eqn:Rd.
  - rewrite (C40_release_exact name dep d tool b Rd Rb). unfold release. tauto.
  - assert (Nd : ~ release d) by (unfold release; rewrite Rd; discriminate).
    rewrite (C40_prerelease_dependency name dep d tool b Nd Rb). unfold release. rewrite Rd. split; [tauto|].
    intros H. destruct (H Rb) as [C [K|K]]; [discriminate K|tauto].
Qed.

Lemma check_advice show name dep dv tool b : accepted (check_dependency_version name dep dv tool b) ->
  advice show name dep tool b dv (map (vmsg_text show) (fst (check_dependency_version name dep dv tool b))).
Proof.
  intros A. destruct dv as [d|]; [|discriminate A]. assert (F := proj1 (fits_spec _ _ _ _ _) A).
  assert (S0 := satisfies_spec b d). unfold accepted, check_dependency_version in *. destruct (_ && _); [discriminate A|].
  destruct (req_matches d b); cbn [negb fst map].
  - apply ad_silent. now apply S0.
  - apply ad_upgrade; [exact F|]. intros K. apply S0 in K. discriminate K.
Qed.

Lemma advises_other w o afl t1 t2 l : (forall x, ~ In (AListTests x) t1) -> advises w o afl t2 l -> advises w o afl (t1 ++ t2) l.
Proof.
  intros N C. induction t1 as [|a t1 IH]; [exact C|]. cbn [app]. apply as_other; [intros x ->; apply (N x); now left|].
  apply IH. intros x I. apply (N x). now right.
Qed.

Lemma advises_none w o afl t : (forall x, ~ In (AListTests x) t) -> advises w o afl t [].
Proof. intros N. rewrite <- (app_nil_r t). apply advises_other; [exact N|constructor]. Qed.

(** The executables that keep a target. *)
Definition kept (o : opts) (l1 : list (executable * list str)) : list (executable * list str) :=
  match o_ztarget o with
  | Some pat => filter_executable_targets (o_exact o) pat (List.filter (fun et => match snd et with [] => false | _ => true end) l1)
  | None => List.filter (fun et => match snd et with [] => false | _ => true end) l1
  end.

Lemma picks_in o ts us : picks o ts us -> forall tg, In tg us <-> In tg ts /\ selected o tg.
Proof.
  induction 1 as [|tg ts us Y P IH|tg ts us Y P IH]; intros z; cbn [In].
  - tauto.
  - rewrite IH. split; [intros [<-|H]; tauto|tauto].
  - rewrite IH. split; [tauto|]. intros [[<-|H] K]; tauto.
Qed.

Lemma kept_cons w o x ts l1 : targets (w_listing w x) = Ret ts ->
  (has_target w o x /\ exists us, kept o ((x, ts) :: l1) = (x, us) :: kept o l1) \/ (~ has_target w o x /\ kept o ((x, ts) :: l1) = kept o l1).
Proof.
  intros T. pose proof (picks_in o ts _ (picks_filter o ts)) as P.
  assert (H : has_target w o x <-> exists tg, In tg ts /\ selected o tg).
  { unfold has_target. split; [intros (ts' & tg & T' & I & S0); exists tg; split; [congruence|exact S0]|intros (tg & I & S0); eauto]. }
  unfold kept. destruct (o_ztarget o) as [pat|] eqn:Z; cbn [List.filter snd].
  - destruct ts as [|t ts]; [right; split; [rewrite H; intros (? & [] & _)|reflexivity]|]. cbn [filter_executable_targets].
    destruct (filter_targets (o_exact o) pat (t :: ts)) as [|u us] eqn:F.
    + right. split; [|reflexivity]. rewrite H. intros (tg & I). apply P in I. exact I.
    + left. split; [|eauto]. rewrite H. exists u. apply P. now left.
  - destruct ts as [|t ts]; [right; split; [rewrite H; intros (? & [] & _)|reflexivity]|]. left. split; [|eauto].
    rewrite H. exists t. apply P. now left.
Qed.

Lemma advises_listing w o afl xs l1 t :
  mapM (fun e => bind (targets (w_listing w e)) (fun ts => Ret (e, ts))) xs = Ret l1 ->
  snd (check_versions (w_self w) afl (map (fun et => as_vexe (fst et)) (kept o l1))) = None ->
  advises w o afl t [] ->
  advises w o afl (map (fun x => AListTests x) xs ++ t)
    (map (vmsg_text (w_show w)) (fst (check_versions (w_self w) afl (map (fun et => as_vexe (fst et)) (kept o l1))))).
Proof.
  intros M V C. revert l1 M V. induction xs as [|x xs IH]; intros l1 M V; cbn [mapM map app] in *.
  { assert (l1 = []) as -> by congruence. unfold kept. destruct (o_ztarget o); exact C. }
  destruct (targets (w_listing w x)) as [ts|e|] eqn:T; cbn [bind] in M; try discriminate M.
  destruct (mapM _ xs) as [l2|e|]; cbn [bind] in M; try discriminate M. assert (l1 = (x, ts) :: l2) as -> by congruence. clear M.
  destruct (kept_cons w o x ts l2 T) as [(H & us & K)|(H & K)]; rewrite K in *.
  2:{ apply as_skip; [exact H|]. exact (IH l2 eq_refl V). }
  cbn [map fst check_versions] in V |- *.
  pose proof (check_advice (w_show w) (Semver.x_name (as_vexe x)) (lit "test-fuzz") (x_test_fuzz (as_vexe x)) (lit "cargo-test-fuzz") (w_self w)) as A1.
  pose proof (check_advice (w_show w) (Semver.x_name (as_vexe x)) (lit "afl") (x_afl (as_vexe x)) (lit "cargo-afl") afl) as A2.
  unfold accepted in A1, A2.
  destruct (check_dependency_version _ (lit "test-fuzz") _ _ _) as [m1 [e1|]]; [discriminate V|].
  destruct (check_dependency_version _ (lit "afl") _ _ _) as [m2 [e2|]]; [discriminate V|].
  specialize (IH l2 eq_refl). destruct (check_versions (w_self w) afl _) as [m3 r]. cbn [fst snd] in *.
  rewrite !map_app. apply as_about; [exact H|exact (A1 eq_refl)|exact (A2 eq_refl)|exact (IH V)].
Qed.

(** ** A run up to the targets *)

Definition unnoted (a : act) : Prop := (forall n, a <> AVersionNote n) /\ forall x, a <> AListTests x.

Lemma build_unnoted w o : within unnoted (p_build w o).
Proof.
  unfold p_build. apply within_bind; [apply within_lift|]. intros [c [[md td] env]]. cbn [snd]. apply within_bind; [apply within_act; split; discriminate|].
  intros _. destruct (w_build _ _) as [[[|] ms]|]; [apply within_lift| |apply within_lift].
  apply within_bind; [|intros _; apply within_lift]. apply within_for. intros x. unfold p_compiler. destruct x; [apply within_ret|apply within_act; split; discriminate|apply within_ret].
Qed.

Lemma prepare_hints w o m m' t l : p_prepare w o m = (m', t, ROk l) -> exists afl, tells_version w afl /\ advises w o afl t (hints w t).
Proof.
  intros E. unfold p_prepare in E.
  apply pbind_inv in E as [(m1 & t1 & t2 & a & X1 & E & ->)|(r1 & _ & _ & N & _)]; [|exfalso; eapply N; reflexivity].
  assert (t1 = [AVersion]) as -> by (unfold pact in X1; congruence).
  apply pbind_inv in E as [(m3 & t3 & t4 & afl & X3 & E & ->)|(r1 & _ & _ & N & _)]; [|exfalso; eapply N; reflexivity].
  apply pbind_inv in E as [(m5 & t5 & t6 & xs & X5 & E & ->)|(r1 & _ & _ & N & _)]; [|exfalso; eapply N; reflexivity].
  apply pbind_inv in E as [(m7 & t7 & t8 & l0 & X7 & E & ->)|(r1 & _ & _ & N & _)]; [|exfalso; eapply N; reflexivity].
  apply pbind_inv in E as [(m9 & t9 & t10 & u & X9 & E & ->)|(r1 & _ & _ & N & _)]; [|exfalso; eapply N; reflexivity].
  assert (t10 = [] /\ l0 = l) as [-> ->] by (unfold pret in E; split; congruence).
  assert (T3 : t3 = [] /\ cached_cargo_afl_version (w_parse w) (w_afl w) = Ret afl).
  { unfold plift in X3. split; [congruence|]. destruct (cached_cargo_afl_version _ _); congruence. }
  destruct T3 as [-> V]. exists afl. split; [now apply tells_exact|].
  pose proof (build_unnoted w o _ _ _ _ X5) as U5. rewrite List.Forall_forall in U5.
  apply targets_ok in X7 as (l1 & M & -> & L0). change (l = kept o l1) in L0. subst l.
  unfold p_versions in X9. cbv zeta in X9.
  apply pbind_inv in X9 as [(n1 & u1 & u2 & b & Y1 & X9 & ->)|(r1 & _ & _ & N & _)]; [|exfalso; eapply N; reflexivity].
  apply pfor_acts in Y1 as [-> _].
  assert (u2 = [] /\ snd (check_versions (w_self w) afl (map (fun et => as_vexe (fst et)) (kept o l1))) = None) as [-> S0].
  { unfold perr, plift, pret in X9. destruct (snd _); [discriminate X9|]. split; congruence. }
  rewrite !app_nil_r. cbn [app hints]. rewrite !hints_app, hints_notes. rewrite (hints_none w t5) by (intros n I; now apply (proj1 (U5 _ I) n)).
  rewrite (hints_none w (map _ xs)) by (intros n I; apply in_map_iff in I as (? & K & _); discriminate K). cbn [app].
  apply as_other; [discriminate|]. apply advises_other; [intros x I; now apply (proj2 (U5 _ I) x)|].
  apply advises_listing; [exact M|exact S0|]. apply advises_none. intros x I. apply in_map_iff in I as (? & K & _). discriminate K.
Qed.

(** ** Every hint has its reason *)

Definition due (w : world) (x : executable) (s : str) : Prop :=
  (exists d, ex_test_fuzz x = Some d /\ fits (w_self w) d /\ ~ satisfies (w_self w) d /\
             s = upgrade (w_show w) (ex_name x) (lit "test-fuzz") d (lit "cargo-test-fuzz") (w_self w)) \/
  (exists afl d, tells_version w afl /\ ex_afl x = Some d /\ fits afl d /\ ~ satisfies afl d /\
             s = upgrade (w_show w) (ex_name x) (lit "afl") d (lit "cargo-afl") afl).

Lemma check_note show name dep dv tool b n : In n (fst (check_dependency_version name dep dv tool b)) ->
  exists d, dv = Some d /\ fits b d /\ ~ satisfies b d /\ vmsg_text show n = upgrade show name dep d tool b.
Proof.
  intros I. destruct dv as [d|]; [|destruct I]. exists d. split; [reflexivity|].
  assert (H : hinted (check_dependency_version name dep (Some d) tool b)) by (unfold hinted; destruct (fst _); [destruct I|discriminate]).
  destruct (C41_hint_text _ _ _ _ _ H) as [F A]. rewrite F in I. destruct I as [<-|[]].
  split; [now apply (fits_spec name dep d tool b)|]. split; [|reflexivity].
  intros K. apply satisfies_spec in K. apply (hinted_cases name dep d tool b A) in H. congruence.
Qed.

Lemma versions_note ctf afl xs n : In n (fst (check_versions ctf afl xs)) -> exists x, In x xs /\
  (In n (fst (check_dependency_version (Semver.x_name x) (lit "test-fuzz") (x_test_fuzz x) (lit "cargo-test-fuzz") ctf)) \/
   In n (fst (check_dependency_version (Semver.x_name x) (lit "afl") (x_afl x) (lit "cargo-afl") afl))).
Proof.
  induction xs as [|x xs IH]; [intros []|]. cbn [check_versions]. intros I.
  destruct (check_dependency_version _ (lit "test-fuzz") _ _ _) as [m1 [e1|]] eqn:E1.
  { exists x. split; [now left|]. left. rewrite E1. exact I. }
  destruct (check_dependency_version _ (lit "afl") _ _ _) as [m2 [e2|]] eqn:E2.
  { exists x. split; [now left|]. rewrite E1, E2. cbn [fst] in *. apply in_app_iff in I as [I|I]; [now left|now right]. }
  destruct (check_versions ctf afl xs) as [m3 r]. cbn [fst] in *. rewrite !in_app_iff in I. destruct I as [I|[I|I]].
  - exists x. split; [now left|]. left. rewrite E1. exact I.
  - exists x. split; [now left|]. right. rewrite E2. exact I.
  - destruct (IH I) as (y & J & K). exists y. split; [now right|exact K].
Qed.

Lemma kept_in w o xs l1 x ts : mapM (fun e => bind (targets (w_listing w e)) (fun ts => Ret (e, ts))) xs = Ret l1 ->
  In (x, ts) (kept o l1) -> In x xs /\ has_target w o x.
Proof.
  revert l1. induction xs as [|y xs IH]; intros l1 M I; cbn [mapM] in M.
  { assert (l1 = []) as -> by congruence. unfold kept in I. destruct (o_ztarget o); destruct I. }
  destruct (targets (w_listing w y)) as [us|e|] eqn:T; cbn [bind] in M; try discriminate M.
  destruct (mapM _ xs) as [l2|e|]; cbn [bind] in M; try discriminate M. assert (l1 = (y, us) :: l2) as -> by congruence. clear M.
  destruct (kept_cons w o y us l2 T) as [(H & vs & K)|(H & K)]; rewrite K in I.
  - destruct I as [I|I]; [injection I as <- _; split; [now left|exact H]|]. destruct (IH l2 eq_refl I). split; [now right|assumption].
  - destruct (IH l2 eq_refl I). split; [now right|assumption].
Qed.

Lemma within_in {A} (Q : act -> Prop) (p : phase A) m m' t r a : within Q p -> p m = (m', t, r) -> In a t -> Q a.
Proof. intros W E I. specialize (W _ _ _ _ E). rewrite List.Forall_forall in W. now apply W. Qed.

Lemma targets_unnoted w o xs : within (fun a => forall n, a <> AVersionNote n) (p_targets w o xs).
Proof.
  unfold p_targets. apply within_bind; [|intros l; apply within_ret]. apply within_map. intros x.
  apply within_bind; [apply within_act; discriminate|]. intros _. apply within_bind; [apply within_lift|]. intros ts. apply within_ret.
Qed.

Lemma prepare_notes w o m m' t r n : p_prepare w o m = (m', t, r) -> In (AVersionNote n) t ->
  exists x, In (AListTests x) t /\ has_target w o x /\ due w x (vmsg_text (w_show w) n).
Proof.
  intros E I. unfold p_prepare in E.
  apply pbind_inv in E as [(m1 & t1 & t2 & a & X1 & E & ->)|(r1 & X1 & _)].
  2:{ unfold pact in X1. assert (t = [AVersion]) as -> by congruence. destruct I as [I|[]]. discriminate I. }
  assert (t1 = [AVersion]) as -> by (unfold pact in X1; congruence). destruct I as [I|I]; [discriminate I|].
  apply pbind_inv in E as [(m3 & t3 & t4 & afl & X3 & E & ->)|(r1 & X3 & _)].
  2:{ unfold plift in X3. assert (t2 = []) as -> by congruence. destruct I. }
  assert (T3 : t3 = [] /\ cached_cargo_afl_version (w_parse w) (w_afl w) = Ret afl).
  { unfold plift in X3. split; [congruence|]. destruct (cached_cargo_afl_version _ _); congruence. }
  destruct T3 as [-> V]. cbn [app] in I |- *.
  apply pbind_inv in E as [(m5 & t5 & t6 & xs & X5 & E & ->)|(r1 & X5 & _)].
  2:{ exfalso. now apply (proj1 (within_in _ _ _ _ _ _ _ (build_unnoted w o) X5 I) n). }
  apply in_app_iff in I as [I|I]; [exfalso; now apply (proj1 (within_in _ _ _ _ _ _ _ (build_unnoted w o) X5 I) n)|].
  apply pbind_inv in E as [(m7 & t7 & t8 & l0 & X7 & E & ->)|(r1 & X7 & _)].
  2:{ exfalso. now apply (within_in _ _ _ _ _ _ _ (targets_unnoted w o xs) X7 I n). }
  apply in_app_iff in I as [I|I]; [exfalso; now apply (within_in _ _ _ _ _ _ _ (targets_unnoted w o xs) X7 I n)|].
  apply targets_ok in X7 as (l1 & M & -> & L0). change (l0 = kept o l1) in L0. subst l0.
  assert (J : In n (fst (check_versions (w_self w) afl (map (fun et => as_vexe (fst et)) (kept o l1))))).
  { assert (X9 : exists m9 t9 r9, p_versions w afl (kept o l1) m7 = (m9, t9, r9) /\ In (AVersionNote n) t9).
    { apply pbind_inv in E as [(m9 & t9 & t10 & u & X9 & E & ->)|(r1 & X9 & _)]; [|eauto 10].
      assert (t10 = []) as -> by (unfold pret in E; congruence). rewrite app_nil_r in I. eauto 10. }
    clear E I. destruct X9 as (m9 & t9 & r9 & X9 & I). unfold p_versions in X9. cbv zeta in X9.
    apply pbind_inv in X9 as [(n1 & u1 & u2 & b & Y1 & X9 & ->)|(r1 & Y1 & _)].
    - apply pfor_acts in Y1 as [-> _]. assert (u2 = []) as -> by (unfold perr, plift, pret in X9; destruct (snd _); congruence).
      rewrite app_nil_r in I. apply in_map_iff in I as (n' & K & I). assert (n' = n) as <- by congruence. exact I.
    - apply pfor_acts in Y1 as [-> _]. apply in_map_iff in I as (n' & K & I). assert (n' = n) as <- by congruence. exact I. }
  apply versions_note in J as (vx & J & D). apply in_map_iff in J as ([x ts] & <- & J). cbn [fst] in D.
  destruct (kept_in _ _ _ _ _ _ M J) as [Ix H]. exists x.
  split; [right; apply in_app_iff; right; apply in_app_iff; left; apply in_map_iff; now exists x|]. split; [exact H|].
  destruct D as [D|D]; apply (check_note (w_show w)) in D as (d & Dd & Fd & Sd & ->).
  - left. exists d. auto.
  - right. exists afl, d. split; [now apply tells_exact|auto].
Qed.

Lemma hints_in w t s : In s (hints w t) <-> exists n, In (AVersionNote n) t /\ s = vmsg_text (w_show w) n.
Proof.
  induction t as [|a t IH]; [split; [intros []|intros (? & [] & _)]|].
  destruct a; cbn [hints In]; rewrite ?IH; (split; [|intros (n & [K|K] & E); [try discriminate K|]; eauto]); try (intros (n & I & E); eauto); try tauto.
  - intros [E|(n & I & E)]; [exists m; auto|eauto].
  - left. congruence.
Qed.

Lemma has_target_adjust w o x : has_target w (adjust o) x <-> has_target w o x.
Proof. unfold has_target. split; intros (ts & tg & T & I & S0); exists ts, tg; (split; [exact T|]); (split; [exact I|]); now apply selected_adjust. Qed.

Lemma advises_adjust w o afl t l : advises w (adjust o) afl t l -> advises w o afl t l.
Proof.
  induction 1 as [|x a b t l H A B C IH|x t l H C IH|a t l H C IH]; [constructor|apply as_about; try assumption; now apply has_target_adjust| |now apply as_other].
  apply as_skip; [|exact IH]. intros K. apply H. now apply has_target_adjust.
Qed.

Lemma dispatch_late w o l m m' t r a : dispatch w o l m = (m', t, r) -> In a t -> ~ prep a.
Proof.
  intros D I P. unfold prep in P.
  apply dispatch_cases in D as [(_ & _ & -> & _)|[(_ & _ & _ & -> & _)|[(_ & _ & _ & D)|[(_ & _ & _ & _ & D)|[(_ & _ & _ & _ & _ & D)|(_ & _ & _ & _ & _ & D)]]]]].
  - destruct I as [<-|[]]. discriminate P.
  - destruct I.
  - pose proof (within_in _ _ _ _ _ _ _ (clear_within w o _ l) D I) as Q. unfold of_job in Q. congruence.
  - pose proof (within_in _ _ _ _ _ _ _ (clear_within w o _ l) D I) as Q. unfold of_job in Q. congruence.
  - pose proof (within_in _ _ _ _ _ _ _ (show_within w o l) D I) as Q. unfold of_job in Q. congruence.
  - assert (W : within (of_job JFuzz) (pbind (plift (flatten_executable_targets (o_exact o) (o_ztarget o) l)) (p_fuzz w o))).
    { apply within_bind; [apply within_lift|]. intros fl. apply fuzz_within. }
    pose proof (within_in _ _ _ _ _ _ _ W D I) as Q. unfold of_job in Q. congruence.
Qed.

Lemma advises_end w o afl t1 t2 l : advises w o afl t1 l -> (forall x, ~ In (AListTests x) t2) -> advises w o afl (t1 ++ t2) l.
Proof.
  intros A N. induction A as [|x a b t l H A B C IH|x t l H C IH|a t l H C IH]; cbn [app]; [now apply advises_none|now apply as_about|now apply as_skip|now apply as_other].
Qed.

Lemma advice_unique show name dep tool b dv l l' : advice show name dep tool b dv l -> advice show name dep tool b dv l' -> l = l'.
Proof. intros [d H|d F H] D; inversion D; subst; try contradiction; reflexivity. Qed.

(** ** Theorems *)

(** C108: an invocation that comes to deal with the targets has said exactly what is to be said
    about the versions of the executables that have selected targets, in their order, and says
    nothing more about versions. *)
Theorem C108_hints :
  forall (w : world) (o : opts) (m m' : fs) (t : list act) (r : rres unit),
    run w o m = (m', t, r) -> r = ROk tt \/ (exists a, In a t /\ ~ early_act a) ->
    exists afl, tells_version w afl /\ advises w o afl t (hints w t).
Proof.
  intros w o m m' t r E C. apply run_eq in E as (r0 & E & R).
  assert (C' : r0 = ROk tt \/ exists a, In a t /\ ~ early_act a).
  { destruct C as [C|C]; [left|right; exact C]. destruct r0; try destruct (o_exit_code o); congruence. }
  clear C R. apply run_shape in E as [(_ & _ & -> & e & ->)|[(_ & _ & E & N)|(_ & t1 & t2 & l & E & D & ->)]].
  - destruct C' as [K|(a & [] & _)]. discriminate K.
  - destruct C' as [K|(a & I & K)]; [exfalso; now apply (N tt)|]. exfalso. apply K, early_prep.
    exact (within_in _ _ _ _ _ _ _ (prepare_within w (adjust o)) E I).
  - destruct (prepare_hints _ _ _ _ _ _ E) as (afl & T & A). exists afl. split; [exact T|]. apply advises_adjust.
    assert (U : forall a, In a t2 -> ~ prep a) by (intros a I; exact (dispatch_late _ _ _ _ _ _ _ _ D I)).
    rewrite hints_app, (hints_none w t2), app_nil_r by (intros n I; apply (U _ I); reflexivity).
    apply advises_end; [exact A|]. intros x I. apply (U _ I). reflexivity.
Qed.
Print Assumptions C108_hints.

(** C108: these conditions leave no choice. *)
Theorem C108_determined :
  forall (w : world) (o : opts) (afl : version) (t : list act) (l l' : list str),
    advises w o afl t l -> advises w o afl t l' -> l = l'.
Proof.
  intros w o afl t l l' A. revert l'. induction A as [|x a b t l H A B C IH|x t l H C IH|a t l H C IH]; intros l' D; inversion D as [|x' a' b' t' l2 H' A' B' C'|x' t' l2 H' C'|a' t' l2 H' C']; subst;
    try contradiction; try (exfalso; eapply H; reflexivity); try (exfalso; eapply H'; reflexivity); try (now apply IH); try reflexivity.
  rewrite (IH l2 C'), (advice_unique _ _ _ _ _ _ _ _ A A'), (advice_unique _ _ _ _ _ _ _ _ B B'). reflexivity.
Qed.
Print Assumptions C108_determined.

(** C108: in any invocation, each hint is about an executable that was asked for its targets and
    has a selected one. *)
Theorem C108_reasons :
  forall (w : world) (o : opts) (m m' : fs) (t : list act) (r : rres unit) (s : str),
    run w o m = (m', t, r) -> In s (hints w t) ->
    exists x, In (AListTests x) t /\ has_target w o x /\ due w x s.
Proof.
  intros w o m m' t r s E I. apply hints_in in I as (n & I & ->). apply run_eq in E as (r0 & E & _).
  apply run_shape in E as [(_ & _ & -> & e & ->)|[(_ & _ & E & N)|(_ & t1 & t2 & l & E & D & ->)]]; [destruct I| |].
  - destruct (prepare_notes _ _ _ _ _ _ _ E I) as (x & L & H & K). exists x. split; [exact L|]. split; [now apply has_target_adjust|exact K].
  - apply in_app_iff in I as [I|I]; [|exfalso; now apply (dispatch_late _ _ _ _ _ _ _ _ D I)].
    destruct (prepare_notes _ _ _ _ _ _ _ E I) as (x & L & H & K). exists x. split; [apply in_app_iff; now left|]. split; [now apply has_target_adjust|exact K].
Qed.
Print Assumptions C108_reasons.

(** C108: among releases a hint is due exactly if the dependency is newer and still compatible. *)
Theorem C108_releases :
  forall (b d : version), release b -> release d -> ((fits b d /\ ~ satisfies b d) <-> (compatible d b /\ older b d)).
Proof.
  intros b d Rb Rd. pose proof (C41_hint_exact [] [] d [] b Rd Rb) as H. cbv zeta in H.
  pose proof (fits_spec [] [] d [] b) as F. pose proof (C40_release_exact [] [] d [] b Rd Rb) as A. pose proof (hinted_cases [] [] d [] b) as I. cbv zeta in I.
  pose proof (satisfies_spec b d) as S0. rewrite <- F. split.
  - intros [K N]. split; [now apply A|]. apply (H K), (I K). destruct (req_matches d b); [|reflexivity]. exfalso. now apply N, S0.
  - intros [C O]. apply A in C as K. split; [exact K|]. intros S1. apply S0 in S1. apply (H K), (I K) in O. congruence.
Qed.
Print Assumptions C108_releases.

(** The tool is older than the library in the first invocation; in the second it is a prerelease
    of a later version, and the hint suggests a downgrade. *)
Example C108_example :
  let with_self self :=
    let w := PropsRun4.ex_wide (PropsRun4.ex_listing (lit "f") (lit "g")) None in
    {| w_cargo := w_cargo w; w_parse := w_parse w; w_afl := w_afl w; w_terminal := false; w_build := w_build w;
       w_listing := w_listing w; w_self := self; w_show := w_show w; w_id := None; w_io := w_io w; w_width := None; w_clean := true;
       w_eio := w_eio w; w_lcov := Some true; w_report := w_report w; w_gen := w_gen w; w_cpus := 4; w_checks := true;
       w_foreground := true; w_strip := fun b => b; w_session := [] |} in
  let said self := match run (with_self self) (PropsRun.ex_o (Some Corpus_) None false) ∅ with (_, t, _) => hints (with_self self) t end in
  said (mkversion 7 1 9 []) = [lit "`k` depends on `test-fuzz 7.2.0`, which is newer than `cargo-test-fuzz 7.1.9`. Consider upgrading with `cargo install cargo-test-fuzz --force --version '>=7.2.0'`."] /\
  said (mkversion 8 0 0 [Alpha (lit "rc")]) = [lit "`k` depends on `test-fuzz 7.2.0`, which is newer than `cargo-test-fuzz 8.0.0`. Consider upgrading with `cargo install cargo-test-fuzz --force --version '>=7.2.0'`."] /\
  said (mkversion 7 2 0 []) = [] /\ said (mkversion 7 3 0 []) = [].
Proof. cbv zeta. repeat split; vm_compute; reflexivity. Qed.
