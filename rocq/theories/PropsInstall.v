(** Theorems about the tests that install the tools (C121). *)
From Coq Require Import Ascii String List Bool Arith NArith Lia.
From Verif Require Import Base Decimal Semver SemverText InstallTest Build.
Import ListNotations.
Local Open Scope N_scope.

(** ** The verdicts *)

Inductive verdict := VSilent | VNewer | VRefused.
Definition says (name dep : str) (d : tversion) (bin : str) (b : tversion) (k : verdict) : Prop :=
  check_text name dep (Some d) bin b =
  Ret match k with
      | VSilent => ([], None)
      | VNewer => ([newer_line name dep d bin b], None)
      | VRefused => ([], Some (incompatible_line name dep d bin b))
      end.

Lemma says_spec name dep d bin b : well_formed d -> well_formed b ->
  says name dep d bin b
    (if req_matches (core d) (core b) then VSilent
     else match t_pre b with [] => if req_matches (core b) (core d) then VNewer else VRefused | _ => VNewer end).
Proof.
  intros Wd Wb. unfold says, check_text. rewrite (as_version_req_eq d Wd), (as_version_req_eq b Wb). cbn [bind].
  rewrite (matches_req_eq d b Wd Wb), (matches_req_eq b d Wb Wd).
  destruct (t_pre b); destruct (req_matches (core d) (core b)); cbn [bind negb]; try reflexivity; destruct (req_matches (core b) (core d)); reflexivity.
Qed.

(** Two versions that differ in the first two numbers at most. *)
Lemma downgraded_verdict v : t_pre v = [] ->
  let d := mkt 0 0 (t_patch v) (t_pre v) (t_build v) in
  (req_matches (core d) (core v) = true <-> t_major v = 0 /\ t_minor v = 0) /\ (req_matches (core v) (core d) = true <-> t_major v = 0 /\ t_minor v = 0).
Proof.
  destruct v as [a b c p q]. cbn [t_major t_minor t_patch t_pre t_build]. intros ->. cbv zeta. unfold req_matches, matches_caret, core.
  cbn [t_major t_minor t_patch t_pre t_build v_major v_minor v_patch v_pre map pre_cmp]. rewrite N.eqb_refl.
  destruct a as [|a]; [destruct b as [|b]|]; cbn; split; split; try discriminate; auto; intros [? ?]; discriminate.
Qed.

Lemma upgraded_verdict a b c :
  let d := core (mkt a b 255 [] []) in
  let v := core (mkt a b c [] []) in
  (req_matches d v = false /\ req_matches v d = true <-> (a <> 0 \/ b <> 0) /\ c < 255).
Proof.
  cbv zeta. unfold req_matches, matches_caret, core.
  cbn [t_major t_minor t_patch t_pre t_build v_major v_minor v_patch v_pre map pre_cmp]. rewrite !N.eqb_refl, !andb_true_r. cbn [negb geb orb].
  rewrite (N.eqb_sym 255 c).
  destruct (N.eqb_spec c 255) as [->|Nc]; cbn [negb].
  { destruct (0 <? a), (0 <? b); split; intros [H K]; try discriminate H; lia. }
  destruct (N.ltb_spec 0 a) as [La|La]; [|destruct (N.ltb_spec 0 b) as [Lb|Lb]].
  - rewrite N.ltb_ge, N.ltb_lt. lia.
  - rewrite N.ltb_ge, N.ltb_lt. lia.
  - split; [intros [_ K]; discriminate K|]. lia.
Qed.

(** ** All executables *)

Definition good (x : tested) : Prop :=
  ~ In backtick (e_name x) /\ (forall d, e_test_fuzz x = Some d -> well_formed d) /\ (forall d, e_afl x = Some d -> well_formed d).

(** What [check_text] can return. *)
Definition possible (name dep : str) (dv : option tversion) (bin : str) (b : tversion) (r : list str * option str) : Prop :=
  match dv with
  | None => r = ([], Some (missing_line name dep))
  | Some d => r = ([], None) \/ r = ([newer_line name dep d bin b], None) \/ r = ([], Some (incompatible_line name dep d bin b))
  end.

Lemma check_possible name dep dv bin b : (forall d, dv = Some d -> well_formed d) -> well_formed b ->
  exists r, check_text name dep dv bin b = Ret r /\ possible name dep dv bin b r.
Proof.
  intros Wd Wb. destruct dv as [d|]; [|eexists; split; reflexivity].
  pose proof (says_spec name dep d bin b (Wd d eq_refl) Wb) as S0. unfold says in S0. eexists. split; [exact S0|]. cbn [possible].
  destruct (if req_matches (core d) (core b) then _ else _); auto.
Qed.

(** Where the lines and the error come from. *)
Lemma check_all_origin tool afl xs : Forall good xs -> well_formed tool -> well_formed afl ->
  exists r, check_all tool afl xs = Ret r /\
    (forall l, In l (fst r) -> exists x s e, In x xs /\ In l s /\
       (check_text (e_name x) (lit "test-fuzz") (e_test_fuzz x) (lit "cargo-test-fuzz") tool = Ret (s, e) \/
        check_text (e_name x) (lit "afl") (e_afl x) (lit "cargo-afl") afl = Ret (s, e))) /\
    (forall e, snd r = Some e -> exists x s, In x xs /\
       (check_text (e_name x) (lit "test-fuzz") (e_test_fuzz x) (lit "cargo-test-fuzz") tool = Ret (s, Some e) \/
        check_text (e_name x) (lit "afl") (e_afl x) (lit "cargo-afl") afl = Ret (s, Some e))).
Proof.
  intros F Wt Wa. induction F as [|x xs (Nx & Gt & Ga) F (r3 & E3 & L3 & S3)].
  { eexists. split; [reflexivity|]. split; [intros l []|discriminate]. }
  destruct (check_possible (e_name x) (lit "test-fuzz") (e_test_fuzz x) (lit "cargo-test-fuzz") tool Gt Wt) as ([s1 e1] & E1 & _).
  destruct (check_possible (e_name x) (lit "afl") (e_afl x) (lit "cargo-afl") afl Ga Wa) as ([s2 e2] & E2 & _).
  cbn [check_all]. rewrite E1. cbn [bind fst snd]. destruct e1 as [e1|].
  { eexists. split; [reflexivity|]. cbn [fst snd]. split.
    - intros l I. exists x, s1, (Some e1). split; [now left|]. auto.
    - intros e K. injection K as <-. exists x, s1. split; [now left|]. auto. }
  rewrite E2. cbn [bind fst snd]. destruct e2 as [e2|].
  { eexists. split; [reflexivity|]. cbn [fst snd]. split.
    - intros l I. apply in_app_iff in I as [I|I]; [exists x, s1, None|exists x, s2, (Some e2)]; (split; [now left|]); auto.
    - intros e K. injection K as <-. exists x, s2. split; [now left|]. auto. }
  rewrite E3. cbn [bind]. eexists. split; [reflexivity|]. cbn [fst snd]. split.
  - intros l I. rewrite !in_app_iff in I. destruct I as [I|[I|I]].
    + exists x, s1, None. split; [now left|]. auto.
    + exists x, s2, None. split; [now left|]. auto.
    + destruct (L3 l I) as (y & s & e & J & H). exists y, s, e. split; [now right|exact H].
  - intros e K. destruct (S3 e K) as (y & s & J & H). exists y, s. split; [now right|exact H].
Qed.

(** ** Lines that do not match *)

Lemma no_backtick_cut n n' r r' : ~ In backtick n -> ~ In backtick n' -> n ++ lit "`" ++ r = n' ++ lit "`" ++ r' -> r = r'.
Proof. intros N N' E. apply (first_cut backtick) in E as [_ E]; auto. Qed.

Lemma said_not_error p bin l name dep d bin' b : line_matches (incompatible_pattern p bin) l = true -> l = newer_line name dep d bin' b -> False.
Proof. intros H ->. apply incompatible_begins in H as (n & r & E & _). discriminate E. Qed.

Lemma other_dependency n n' dep dep' r r' : ~ In backtick n -> ~ In backtick n' ->
  lit "`" ++ n ++ lit "` depends on `" ++ dep ++ lit " " ++ r = lit "`" ++ n' ++ lit "` depends on `" ++ dep' ++ lit " " ++ r' ->
  dep ++ lit " " ++ r = dep' ++ lit " " ++ r'.
Proof.
  intros N N' E. apply app_inv_head in E. change (lit "` depends on `" ++ ?s) with (lit "`" ++ lit " depends on `" ++ s) in E.
  apply no_backtick_cut in E; auto. now apply app_inv_head in E.
Qed.

Lemma missing_no_match n n' dep r dep' : ~ In backtick n -> ~ In backtick n' ->
  lit "`" ++ n ++ lit "` depends on `" ++ dep ++ lit " " ++ r = missing_line n' dep' -> False.
Proof.
  intros N N' E. unfold missing_line in E. apply app_inv_head in E. change (lit "` depends on `" ++ ?s) with (lit "`" ++ lit " depends on `" ++ s) in E.
  change (lit "` does not depend on `" ++ ?s) with (lit "`" ++ lit " does not depend on `" ++ s) in E. apply no_backtick_cut in E; auto. discriminate E.
Qed.

Lemma error_of x tool afl : good x -> well_formed tool -> well_formed afl -> forall e s bin,
  (check_text (e_name x) (lit "test-fuzz") (e_test_fuzz x) (lit "cargo-test-fuzz") tool = Ret (s, Some e) \/
   check_text (e_name x) (lit "afl") (e_afl x) (lit "cargo-afl") afl = Ret (s, Some e)) ->
  forall dep, line_matches (incompatible_pattern dep bin) (lit "Error: " ++ e) = true ->
    (dep = lit "test-fuzz" -> exists d, e_test_fuzz x = Some d /\ says (e_name x) (lit "test-fuzz") d (lit "cargo-test-fuzz") tool VRefused) /\
    (dep = lit "afl" -> exists d, e_afl x = Some d /\ says (e_name x) (lit "afl") d (lit "cargo-afl") afl VRefused).
Proof.
  intros (N & Gt & Ga) Wt Wa e s bin H dep M. apply incompatible_begins in M as (n & r & E & Nn).
  change (lit "Error: `" ++ ?s) with (lit "Error: " ++ lit "`" ++ s) in E. apply app_inv_head in E. symmetry in E.
  destruct H as [H|H].
  - destruct (check_possible (e_name x) (lit "test-fuzz") (e_test_fuzz x) (lit "cargo-test-fuzz") tool Gt Wt) as (r0 & E0 & P).
    assert (r0 = (s, Some e)) as -> by congruence. unfold possible in P. destruct (e_test_fuzz x) as [d|].
    + destruct P as [P|[P|P]]; try discriminate P. injection P as -> ->. unfold incompatible_line in E. apply other_dependency in E; auto. split.
      * intros ->. exists d. split; [reflexivity|]. exact H.
      * intros ->. discriminate E.
    + injection P as -> ->. exfalso. exact (missing_no_match _ _ _ _ _ Nn N E).
  - destruct (check_possible (e_name x) (lit "afl") (e_afl x) (lit "cargo-afl") afl Ga Wa) as (r0 & E0 & P).
    assert (r0 = (s, Some e)) as -> by congruence. unfold possible in P. destruct (e_afl x) as [d|].
    + destruct P as [P|[P|P]]; try discriminate P. injection P as -> ->. unfold incompatible_line in E. apply other_dependency in E; auto. split.
      * intros ->. discriminate E.
      * intros ->. exists d. split; [reflexivity|]. exact H.
    + injection P as -> ->. exfalso. exact (missing_no_match _ _ _ _ _ Nn N E).
Qed.

Lemma said_of x tool afl : good x -> well_formed tool -> well_formed afl -> forall l e s bin,
  In l s ->
  (check_text (e_name x) (lit "test-fuzz") (e_test_fuzz x) (lit "cargo-test-fuzz") tool = Ret (s, e) \/
   check_text (e_name x) (lit "afl") (e_afl x) (lit "cargo-afl") afl = Ret (s, e)) ->
  (forall dep, line_matches (incompatible_pattern dep bin) l = false) /\
  (line_matches (newer_pattern (lit "test-fuzz") bin) l = true -> exists d, e_test_fuzz x = Some d /\ says (e_name x) (lit "test-fuzz") d (lit "cargo-test-fuzz") tool VNewer) /\
  (line_matches (newer_pattern (lit "afl") bin) l = true -> exists d, e_afl x = Some d /\ says (e_name x) (lit "afl") d (lit "cargo-afl") afl VNewer).
Proof.
  intros (N & Gt & Ga) Wt Wa l e s bin I H.
  assert (K : (exists d, e_test_fuzz x = Some d /\ says (e_name x) (lit "test-fuzz") d (lit "cargo-test-fuzz") tool VNewer /\ l = newer_line (e_name x) (lit "test-fuzz") d (lit "cargo-test-fuzz") tool) \/
              (exists d, e_afl x = Some d /\ says (e_name x) (lit "afl") d (lit "cargo-afl") afl VNewer /\ l = newer_line (e_name x) (lit "afl") d (lit "cargo-afl") afl)).
  { destruct H as [H|H].
    - left. destruct (check_possible (e_name x) (lit "test-fuzz") (e_test_fuzz x) (lit "cargo-test-fuzz") tool Gt Wt) as (r0 & E0 & P).
      assert (r0 = (s, e)) as -> by congruence. unfold possible in P. destruct (e_test_fuzz x) as [d|]; [|injection P as -> _; destruct I].
      destruct P as [P|[P|P]]; injection P as -> ->; try destruct I as [<-|[]]; try destruct I. exists d. auto.
    - right. destruct (check_possible (e_name x) (lit "afl") (e_afl x) (lit "cargo-afl") afl Ga Wa) as (r0 & E0 & P).
      assert (r0 = (s, e)) as -> by congruence. unfold possible in P. destruct (e_afl x) as [d|]; [|injection P as -> _; destruct I].
      destruct P as [P|[P|P]]; injection P as -> ->; try destruct I as [<-|[]]; try destruct I. exists d. auto. }
  split; [|split].
  - intros dep. destruct (line_matches (incompatible_pattern dep bin) l) eqn:M; [|reflexivity]. exfalso.
    destruct K as [(d & _ & _ & K)|(d & _ & _ & K)]; exact (said_not_error _ _ _ _ _ _ _ _ M K).
  - intros M. destruct K as [(d & Ed & Sd & _)|(d & Ed & Sd & ->)]; [eauto|]. exfalso.
    apply newer_begins in M as (n & r & r' & E & Nn & _). unfold newer_line in E. apply other_dependency in E; auto. discriminate E.
  - intros M. destruct K as [(d & Ed & Sd & ->)|(d & Ed & Sd & _)]; [|eauto]. exfalso.
    apply newer_begins in M as (n & r & r' & E & Nn & _). unfold newer_line in E. apply other_dependency in E; auto. discriminate E.
Qed.

Lemma grep_lines p other r : (forall l, In l other -> line_matches p l = false) ->
  (grep p (stderr_lines other r) = true <->
   (exists l, In l (fst r) /\ line_matches p l = true) \/ (exists e, snd r = Some e /\ line_matches p (lit "Error: " ++ e) = true)).
Proof.
  intros O. unfold grep, stderr_lines. rewrite existsb_exists. split.
  - intros (l & I & M). rewrite !in_app_iff in I. destruct I as [I|[I|I]].
    + rewrite (O l I) in M. discriminate M.
    + left. eauto.
    + right. destruct (snd r) as [e|]; [|destruct I]. destruct I as [<-|[]]. eauto.
  - intros [(l & I & M)|(e & E & M)].
    + exists l. split; [|exact M]. rewrite !in_app_iff. auto.
    + exists (lit "Error: " ++ e). split; [|exact M]. rewrite !in_app_iff, E. right. right. now left.
Qed.

Lemma says_deterministic name dep d bin b k k' : says name dep d bin b k -> says name dep d bin b k' -> k = k'.
Proof. unfold says. intros H H'. rewrite H in H'. destruct k, k'; try reflexivity; discriminate H'. Qed.

Lemma self_silent name dep v bin : well_formed v -> says name dep v bin v VSilent.
Proof.
  intros W. pose proof (says_spec name dep v bin v W W) as S0.
  assert (K : req_matches (core v) (core v) = true).
  { unfold req_matches, matches_caret, pre_is_compatible. rewrite !N.eqb_refl. cbn [negb orb andb].
    assert (G : geb (pre_cmp (v_pre (core v)) (v_pre (core v))) = true).
    { assert (I : forall l, idents_cmp l l = Eq).
      { induction l as [|[n|w] l IH]; [reflexivity| |]; cbn [idents_cmp ident_cmp].
        - rewrite N.compare_refl. exact IH.
        - assert (C : forall w, str_cmp w w = Eq). { clear. induction w as [|c w IH]; [reflexivity|]. cbn [str_cmp]. rewrite N.compare_refl. exact IH. }
          rewrite C. exact IH. }
      unfold pre_cmp. destruct (v_pre (core v)) as [|i l]; [reflexivity|]. now rewrite I. }
    rewrite G. destruct (0 <? v_major (core v)), (0 <? v_minor (core v)), (v_pre (core v)); reflexivity. }
  rewrite K in S0. exact S0.
Qed.

(** C121: the scripts of the tests replace, in the line with a package's version and in the line
    that requires it, the first two numbers by zero, or the patch number by 255; and they make a
    release of a prerelease. *)
Theorem C121_scripts :
  forall v : tversion, well_formed v ->
    sed downgrade_package (package_line v) = package_line (mkt 0 0 (t_patch v) (t_pre v) (t_build v)) /\
    sed downgrade_dependency (dependency_line v) = dependency_line (mkt 0 0 (t_patch v) (t_pre v) (t_build v)) /\
    sed upgrade_package (package_line v) = package_line (mkt (t_major v) (t_minor v) 255 [] []) /\
    sed upgrade_dependency (dependency_line v) = dependency_line (mkt (t_major v) (t_minor v) 255 [] []) /\
    (t_build v = [] -> sed release_tool (package_line v) = package_line (mkt (t_major v) (t_minor v) (t_patch v) [] [])) /\
    (forall r, ~ In InstallTest.quote r -> sed require_afl (afl_line r) = afl_line (lit "=0.13.3")).
Proof.
  intros v W. split; [now apply downgrade_package_line|]. split; [now apply downgrade_dependency_line|]. split; [now apply upgrade_package_line|].
  split; [now apply upgrade_dependency_line|]. split; [now apply release_tool_line|exact require_afl_line].
Qed.
Print Assumptions C121_scripts.

(** C121: the test for an incompatible test-fuzz succeeds exactly if the repository's version is a
    release other than 0.0.x, whatever the versions of afl are. *)
Theorem C121_incompatible_test_fuzz :
  forall (v afl : tversion) (xs : list tested) (other : list str),
    well_formed v -> well_formed afl -> xs <> [] -> Forall good xs ->
    Forall (fun x => e_test_fuzz x = Some (mkt 0 0 (t_patch v) (t_pre v) (t_build v))) xs ->
    (forall l, In l other -> line_matches (incompatible_pattern (lit "test-fuzz") (lit "cargo-test-fuzz")) l = false) ->
    exists r, check_all v afl xs = Ret r /\
      (test_passes [incompatible_pattern (lit "test-fuzz") (lit "cargo-test-fuzz")] (stderr_lines other r) = true <->
       t_pre v = [] /\ (t_major v <> 0 \/ t_minor v <> 0)).
Proof.
  intros v afl xs other Wv Wa Ne G T O. destruct (check_all_origin v afl xs G Wv Wa) as (r & E & L & S0). exists r. split; [exact E|].
  unfold test_passes. cbn [forallb]. rewrite andb_true_r, (grep_lines _ _ _ O).
  set (d := mkt 0 0 (t_patch v) (t_pre v) (t_build v)) in *. rewrite Forall_forall in G, T. split.
  - intros [(l & I & M)|(e & Ee & M)].
    + exfalso. destruct (L l I) as (x & s & e & J & K & H). destruct (said_of x v afl (G x J) Wv Wa l e s (lit "cargo-test-fuzz") K H) as (Z & _).
      rewrite Z in M. discriminate M.
    + destruct (S0 e Ee) as (x & s & J & H). destruct (error_of x v afl (G x J) Wv Wa e s _ H _ M) as [A _]. destruct (A eq_refl) as (d' & Ed & Sd).
      rewrite (T x J) in Ed. injection Ed as <-. destruct (G x J) as (_ & Gd & _). pose proof (says_spec (e_name x) (lit "test-fuzz") d (lit "cargo-test-fuzz") v (Gd d (T x J)) Wv) as K.
      pose proof (says_deterministic _ _ _ _ _ _ _ Sd K) as Q. destruct (t_pre v) as [|w p] eqn:P; [|destruct (req_matches (core d) (core v)); discriminate Q].
      split; [reflexivity|]. destruct (downgraded_verdict v P) as [D1 _]. cbv zeta in D1. rewrite P in D1. fold d in D1.
      destruct (req_matches (core d) (core v)) eqn:R; [discriminate Q|].
      destruct (N.eq_dec (t_major v) 0) as [Z1|Z1]; [|now left]. right. intros Z2. destruct D1 as [_ D1]. discriminate D1. auto.
  - intros [P Z]. destruct xs as [|x xs]; [now destruct Ne|].
    assert (J : In x (x :: xs)) by now left. pose proof (G x J) as (Nx & Gd & _). pose proof (T x J) as Tx. pose proof (Gd d Tx) as Wd.
    pose proof (says_spec (e_name x) (lit "test-fuzz") d (lit "cargo-test-fuzz") v Wd Wv) as K. rewrite P in K.
    destruct (downgraded_verdict v P) as [D1 D2]. cbv zeta in D1, D2. fold d in D1, D2.
    destruct (req_matches (core d) (core v)) eqn:R1; [exfalso; apply proj1 in D1; specialize (D1 eq_refl); tauto|].
    destruct (req_matches (core v) (core d)) eqn:R2; [exfalso; apply proj1 in D2; specialize (D2 eq_refl); tauto|].
    cbn [check_all] in E. rewrite Tx in E. unfold says in K. rewrite K in E. cbn [bind fst snd] in E. injection E as <-. right.
    eexists. split; [reflexivity|]. now apply incompatible_seen.
Qed.
Print Assumptions C121_incompatible_test_fuzz.

(** C121: so it fails for every prerelease of the repository, although its scripts have been
    applied correctly: a tool that is a prerelease rejects nothing. *)
Theorem C121_prerelease_refuted :
  exists (v afl : tversion) (xs : list tested) (r : list str * option str),
    well_formed v /\ well_formed afl /\ xs <> [] /\ Forall good xs /\
    Forall (fun x => e_test_fuzz x = Some (mkt 0 0 (t_patch v) (t_pre v) (t_build v))) xs /\
    check_all v afl xs = Ret r /\
    test_passes [incompatible_pattern (lit "test-fuzz") (lit "cargo-test-fuzz")] (stderr_lines [] r) = false.
Proof.
  set (v := mkt 9 0 0 [lit "rc"] []). set (d := mkt 0 0 0 [lit "rc"] []). set (afl := mkt 0 18 0 [] []).
  assert (P : pre_word (lit "rc")).
  { split; [split; [discriminate|]|].
    - constructor; [|constructor; [|constructor]]; right; right; left; cbn; lia.
    - intros _ t K. discriminate K. }
  assert (Wv : well_formed v) by (split; [cbn; lia|]; split; [constructor; [exact P|constructor]|constructor]).
  assert (Wd : well_formed d) by (split; [cbn; lia|]; split; [constructor; [exact P|constructor]|constructor]).
  assert (Wa : well_formed afl) by (split; [cbn; lia|]; split; constructor).
  exists v, afl, [mke (lit "assert") (Some d) (Some afl)]. eexists. split; [exact Wv|]. split; [exact Wa|]. split; [discriminate|]. split.
  { constructor; [|constructor]. split; [|split].
    - cbn. intros I. repeat (destruct I as [I|I]; [discriminate I|]). exact I.
    - intros x K. cbn in K. injection K as <-. exact Wd.
    - intros x K. cbn in K. injection K as <-. exact Wa. }
  split; [constructor; [reflexivity|constructor]|]. split; vm_compute; reflexivity.
Qed.
Print Assumptions C121_prerelease_refuted.

(** C121: the test for a newer test-fuzz succeeds exactly if the repository's version is not 0.0.x
    and its patch number is less than 255. *)
Theorem C121_newer_test_fuzz :
  forall (v afl : tversion) (xs : list tested) (other : list str),
    well_formed v -> well_formed afl -> xs <> [] -> Forall good xs ->
    Forall (fun x => e_test_fuzz x = Some (mkt (t_major v) (t_minor v) 255 [] [])) xs ->
    (forall l, In l other -> line_matches (newer_pattern (lit "test-fuzz") (lit "cargo-test-fuzz")) l = false) ->
    exists r, check_all (mkt (t_major v) (t_minor v) (t_patch v) [] []) afl xs = Ret r /\
      (test_passes [newer_pattern (lit "test-fuzz") (lit "cargo-test-fuzz"); upgrade_pattern (lit "cargo-test-fuzz")] (stderr_lines other r) = true <->
       (t_major v <> 0 \/ t_minor v <> 0) /\ t_patch v < 255).
Proof.
  intros v afl xs other Wv Wa Ne G T O. set (tool := mkt (t_major v) (t_minor v) (t_patch v) [] []).
  assert (Wt : well_formed tool). { destruct Wv as ((A & B & C) & _). repeat split; cbn; auto. }
  set (d := mkt (t_major v) (t_minor v) 255 [] []) in *.
  destruct (check_all_origin tool afl xs G Wt Wa) as (r & E & L & S0). exists r. split; [exact E|].
  unfold test_passes. cbn [forallb]. rewrite andb_true_r, andb_true_iff, (grep_lines _ _ _ O).
  pose proof (upgraded_verdict (t_major v) (t_minor v) (t_patch v)) as U. cbv zeta in U. fold d tool in U. rewrite <- U.
  rewrite Forall_forall in G, T. split.
  - intros [[(l & I & M)|(e & Ee & M)] _].
    + destruct (L l I) as (x & s & e & J & K & H). destruct (said_of x tool afl (G x J) Wt Wa l e s (lit "cargo-test-fuzz") K H) as (_ & Z & _).
      destruct (Z M) as (d' & Ed & Sd). rewrite (T x J) in Ed. injection Ed as <-. destruct (G x J) as (_ & Gd & _).
      pose proof (says_spec (e_name x) (lit "test-fuzz") d (lit "cargo-test-fuzz") tool (Gd d (T x J)) Wt) as Q.
      pose proof (says_deterministic _ _ _ _ _ _ _ Sd Q) as R. cbn [t_pre tool] in R.
      destruct (req_matches (core d) (core tool)); [discriminate R|]. destruct (req_matches (core tool) (core d)); [auto|discriminate R].
    + exfalso. apply newer_begins in M as (n & q & q' & M & _). discriminate M.
  - intros [R1 R2]. destruct xs as [|x xs]; [now destruct Ne|].
    assert (J : In x (x :: xs)) by now left. pose proof (G x J) as (Nx & Gd & _). pose proof (T x J) as Tx. pose proof (Gd d Tx) as Wd.
    pose proof (says_spec (e_name x) (lit "test-fuzz") d (lit "cargo-test-fuzz") tool Wd Wt) as K. cbn [t_pre tool] in K. rewrite R1, R2 in K.
    assert (I : In (newer_line (e_name x) (lit "test-fuzz") d (lit "cargo-test-fuzz") tool) (fst r)).
    { cbn [check_all] in E. rewrite Tx in E. unfold says in K. rewrite K in E. cbn [bind fst snd] in E.
      destruct (check_text (e_name x) (lit "afl") (e_afl x) (lit "cargo-afl") afl) as [[s2 [e2|]]| |]; cbn [bind fst snd] in E; try discriminate E.
      - injection E as <-. now left.
      - destruct (check_all tool afl xs) as [r3| |]; cbn [bind] in E; try discriminate E. injection E as <-. now left. }
    split.
    + left. eexists. split; [exact I|]. now apply newer_seen.
    + apply existsb_exists. eexists. split; [unfold stderr_lines; rewrite !in_app_iff; right; left; exact I|]. now apply upgrade_seen.
Qed.
Print Assumptions C121_newer_test_fuzz.

(** C121: with cargo-afl 0.13.2 installed, the test for an incompatible cargo-afl succeeds for every
    afl that the requirement 0.18 allows, and the test for a newer afl for 0.13.3, whatever the
    repository's version is. *)
Theorem C121_afl :
  forall (v a : tversion) (x : tested) (xs : list tested) (other : list str),
    well_formed v -> well_formed a -> Forall good (x :: xs) -> e_test_fuzz x = Some v -> e_afl x = Some a ->
    let installed := mkt 0 13 2 [] [] in
    (forall c, read_req (lit "0.18") = Some c -> matches_req c a = true ->
       exists r, check_all v installed (x :: xs) = Ret r /\
         test_passes [incompatible_pattern (lit "afl") (lit "cargo-afl")] (stderr_lines other r) = true) /\
    ((t_major a, t_minor a, t_patch a, t_pre a) = (0, 13, 3, []) ->
       exists r, check_all v installed (x :: xs) = Ret r /\
         test_passes [newer_pattern (lit "afl") (lit "cargo-afl"); upgrade_pattern (lit "cargo-afl")] (stderr_lines other r) = true).
Proof.
  intros v a x xs other Wv Wa G Tx Ax installed.
  assert (Wi : well_formed installed) by (split; [cbn; lia|]; split; constructor).
  destruct (check_all_origin v installed (x :: xs) G Wv Wi) as (r & E & _). inversion G as [|? ? (Nx & _) G']; subst.
  pose proof (self_silent (e_name x) (lit "test-fuzz") v (lit "cargo-test-fuzz") Wv) as S1. unfold says in S1.
  pose proof (says_spec (e_name x) (lit "afl") a (lit "cargo-afl") installed Wa Wi) as S2. split.
  - intros c R M. exists r. split; [exact E|].
    assert (Rc : c = [mkc Caret 0 (Some 18) None []]). { vm_compute in R. now injection R as <-. }
    subst c. unfold matches_req, satisfied, caret in M. cbn [forallb c_op c_major c_minor c_patch] in M. rewrite andb_true_r in M. apply andb_true_iff in M as [M _].
    destruct (N.eqb_spec (t_major a) 0) as [Z1|]; [|discriminate M]. cbn [negb] in M. change (0 <? 0) with false in M. apply N.eqb_eq in M.
    assert (K1 : req_matches (core a) (core installed) = false).
    { unfold req_matches, matches_caret, core. cbn [v_major v_minor v_patch v_pre]. rewrite Z1, M. reflexivity. }
    assert (K2 : req_matches (core installed) (core a) = false).
    { unfold req_matches, matches_caret, core. cbn [v_major v_minor v_patch v_pre]. rewrite Z1, M. reflexivity. }
    cbn [t_pre installed] in S2. rewrite K1, K2 in S2. unfold says in S2. cbn [check_all] in E. rewrite Tx, S1, Ax in E. cbn [bind fst snd] in E. rewrite S2 in E.
    cbn [bind fst snd app] in E. injection E as <-. unfold test_passes. cbn [forallb]. rewrite andb_true_r. apply existsb_exists.
    eexists. split; [unfold stderr_lines; cbn [fst snd]; rewrite !in_app_iff; right; right; left; reflexivity|]. now apply incompatible_seen.
  - intros Q. injection Q as Q1 Q2 Q3 Q4. exists r. split; [exact E|].
    assert (K1 : req_matches (core a) (core installed) = false).
    { unfold req_matches, matches_caret, core. cbn [v_major v_minor v_patch v_pre]. rewrite Q1, Q2, Q3, Q4. reflexivity. }
    assert (K2 : req_matches (core installed) (core a) = true).
    { unfold req_matches, matches_caret, core. cbn [v_major v_minor v_patch v_pre]. rewrite Q1, Q2, Q3, Q4. reflexivity. }
    cbn [t_pre installed] in S2. rewrite K1, K2 in S2. unfold says in S2.
    assert (I : In (newer_line (e_name x) (lit "afl") a (lit "cargo-afl") installed) (fst r)).
    { cbn [check_all] in E. rewrite Tx, S1, Ax in E. cbn [bind fst snd] in E. rewrite S2 in E. cbn [bind fst snd app] in E.
      destruct (check_all v installed xs) as [r3| |]; cbn [bind] in E; try discriminate E. injection E as <-. now left. }
    assert (J : In (newer_line (e_name x) (lit "afl") a (lit "cargo-afl") installed) (stderr_lines other r)).
    { unfold stderr_lines. rewrite !in_app_iff. auto. }
    unfold test_passes. cbn [forallb]. rewrite andb_true_r. apply andb_true_iff. split; apply existsb_exists; eexists; (split; [exact J|]).
    + now apply newer_seen.
    + now apply upgrade_seen.
Qed.
Print Assumptions C121_afl.

(** C121: what is said without cargo-afl is found, as it comes after a space in the message of the
    panic. *)
Theorem C121_uninstalled :
  forall (before : str) (lines : list str),
    In (before ++ lit " " ++ no_afl_version) lines -> test_passes [uninstalled_pattern] lines = true.
Proof.
  intros before lines I. unfold test_passes. cbn [forallb]. rewrite andb_true_r. apply existsb_exists. eexists. split; [exact I|].
  apply full_spec. cbn [p_start p_atoms p_end uninstalled_pattern]. rewrite app_nil_r, (app_assoc before).
  apply Matches_put_many; [discriminate|]. split.
  - unfold after. rewrite rev_app_distr. reflexivity.
  - change no_afl_version with (lit "Could not determine `cargo-afl` version" ++ "."%char :: (lit " Is it installed? Try `cargo install cargo-afl`" ++ lit ".")).
    apply Matches_put. eexists _, _. split; [reflexivity|]. apply Matches_put. apply one_dot.
Qed.
Print Assumptions C121_uninstalled.

Example C121_example :
  sed downgrade_dependency (lit "test-fuzz = { path = ""test-fuzz"", version = ""=8.1.1"" }") = lit "test-fuzz = { path = ""test-fuzz"", version = ""=0.0.1"" }" /\
  sed downgrade_dependency (lit "test-fuzz-macro = { path = ""macro"", version = ""=8.1.1"" }") = lit "test-fuzz-macro = { path = ""macro"", version = ""=8.1.1"" }" /\
  sed upgrade_package (lit "version = ""8.1.1""") = lit "version = ""8.1.255""" /\
  sed release_tool (lit "version = ""9.0.0-rc.1""") = lit "version = ""9.0.0""" /\
  sed require_afl (lit "afl = { version = ""0.18"" }") = lit "afl = { version = ""=0.13.3"" }" /\
  (let xs := [mke (lit "alloc") (Some (mkt 8 1 255 [] [])) (Some (mkt 0 18 2 [] []))] in
   let r := check_all (mkt 8 1 1 [] []) (mkt 0 18 2 [] []) xs in
   match r with Ret r => test_passes [newer_pattern (lit "test-fuzz") (lit "cargo-test-fuzz"); upgrade_pattern (lit "cargo-test-fuzz")] (stderr_lines [lit "   Compiling afl v0.18.2"] r) | _ => false end = true).
Proof. vm_compute. repeat split. Qed.
