(** Theorems about the order of events in the test of third parties' code (C140). *)
From Coq Require Import Ascii String List Bool Arith NArith Lia.
From Verif Require Import Base Utf8 ThirdParty ThirdRun ThirdFlow.
Import ListNotations.

Definition cmds (l : list step) : list cmd :=
  flat_map (fun s => match s with Must c | May c | Looks c _ => [c] | _ => [] end) l.
Definition good (w : world) (h : list cmd) (s : step) : bool :=
  match s with
  | Must c => match answer w h c with Some _ => true | None => false end
  | May _ => true
  | Depends d n => depends (metadata w h d) n
  | Metadata d => match metadata w h d with Some _ => true | None => false end
  | Looks c ok => match answer w h c with Some out => ok out | None => false end
  | Fails => false
  end.

Lemma take_cons w h s l : take w h (s :: l) = if good w h s then take w (h ++ cmds [s]) l else (h ++ cmds [s], false).
Proof.
  destruct s as [c|c|d n|c ok|d|]; cbn [take good cmds flat_map app]; rewrite ?app_nil_r; try reflexivity.
  - now destruct (answer w h c).
  - destruct (answer w h c) as [o|]; [now destruct (ok o)|reflexivity].
  - now destruct (metadata w h d).
Qed.

Lemma cmds_app a b : cmds (a ++ b) = cmds a ++ cmds b.
Proof. apply flat_map_app. Qed.

Lemma take_app w a b : forall h, take w h (a ++ b) = if snd (take w h a) then take w (h ++ cmds a) b else take w h a.
Proof.
  induction a as [|s a IH]; intros h; [cbn; now rewrite app_nil_r|]. cbn [app]. rewrite !take_cons. destruct (good w h s); [|reflexivity].
  rewrite IH, (cmds_app [s] a : cmds (s :: a) = _), app_assoc. reflexivity.
Qed.

Lemma take_true w l : forall h, snd (take w h l) = true -> fst (take w h l) = h ++ cmds l.
Proof.
  induction l as [|s l IH]; intros h; [cbn; now rewrite app_nil_r|]. rewrite take_cons. destruct (good w h s); [|discriminate]. intros T. rewrite IH by exact T.
  now rewrite (cmds_app [s] l : cmds (s :: l) = _), app_assoc.
Qed.

Lemma take_good w l : forall h, snd (take w h l) = true <-> forall a s b, l = a ++ s :: b -> good w (h ++ cmds a) s = true.
Proof.
  induction l as [|s l IH]; intros h.
  - split; [intros _ a s b E; destruct a; discriminate E|reflexivity].
  - rewrite take_cons. destruct (good w h s) eqn:G.
    + rewrite IH. split.
      * intros H a x b E. destruct a as [|y a]; cbn in E; injection E as <- ->; [cbn; now rewrite app_nil_r|]. rewrite (cmds_app [s] a : cmds (s :: a) = _), app_assoc. now apply (H a x b).
      * intros H a x b ->. rewrite <- app_assoc, <- (cmds_app [s] a : cmds (s :: a) = _). now apply (H (s :: a) x b).
    + split; [discriminate|]. intros H. specialize (H [] s l eq_refl). cbn in H. rewrite app_nil_r in H. congruence.
Qed.

(** Whatever happens, the commands that are run are the first ones of all. *)
Lemma take_prefix w l : forall h, exists a b, cmds l = a ++ b /\ fst (take w h l) = h ++ a.
Proof.
  induction l as [|s l IH]; intros h; [exists [], []; cbn; now rewrite app_nil_r|]. rewrite take_cons. rewrite (cmds_app [s] l : cmds (s :: l) = _).
  destruct (good w h s).
  - destruct (IH (h ++ cmds [s])) as (a & b & -> & ->). exists (cmds [s] ++ a), b. now rewrite <- !app_assoc.
  - exists (cmds [s]), (cmds l). auto.
Qed.

(** If the test passes for a repository that is run, then it has been cloned, the revision checked out
    and the patch for it applied, in this order and before anything else; its tests have been built
    and run, recording; and for each target displaying and replaying have succeeded and printed what
    is looked for, after the tests were run. *)
Theorem C140_passed :
  forall (w : world) (feature : str) (t : test) (all : list cmd),
    let of_tool x arg := mkc (Sub (t_subdir t)) [(lit "RUST_LOG", Some (lit "debug"))]
      [lit "debug/cargo-test-fuzz"; lit "test-fuzz"; lit "--package"; t_fuzz_package t; lit "--features"; lit "test-fuzz/" ++ feature; x; lit arg] in
    take w [] (steps w feature t false) = (all, true) ->
    (exists p f rest, patch (t_url t) = Ret p /\ patches w p = Some f /\
       all = mkc Temp [] [lit "git"; lit "clone"; t_url t; lit "."] :: mkc Temp [] [lit "git"; lit "checkout"; t_rev t] :: mkc Temp [] [lit "git"; lit "apply"; f] :: rest) /\
    exists before after run, all = before ++ run :: after /\ answer w before run <> None /\
      c_in run = Sub (t_subdir t) /\ In (lit "TEST_FUZZ_WRITE", Some (lit "1")) (c_env run) /\
      c_argv run = [lit "cargo"; lit "test"; lit "--package"; t_test_package t; lit "--features"; lit "test-fuzz/" ++ feature; lit "--"; lit "--nocapture"] /\
      (forall c, In c before -> hd [] (c_argv c) <> lit "debug/cargo-test-fuzz") /\
      forall x arg ok, In x (t_targets t) -> (arg = "--display=corpus"%string /\ ok = display_ok \/ arg = "--replay=corpus"%string /\ ok = replay_ok) ->
        exists h out later, after = h ++ of_tool x arg :: later /\ answer w (before ++ run :: h) (of_tool x arg) = Some out /\ ok out = true.
Proof.
  intros w feature t all of_tool T.
  assert (S : snd (take w [] (steps w feature t false)) = true) by now rewrite T.
  assert (C : all = cmds (steps w feature t false)) by (change all with (fst (all, true)); rewrite <- T; now apply take_true).
  pose proof (proj1 (take_good _ _ _) S) as G. clear T S.
  destruct (patch (t_url t)) as [p| |] eqn:P.
  2,3: exfalso; unfold steps in G; rewrite P in G; specialize (G [Must (mkc Temp [] [lit "git"; lit "clone"; t_url t; lit "."]); Must (mkc Temp [] [lit "git"; lit "checkout"; t_rev t])] Fails _ eq_refl); discriminate G.
  destruct (patches w p) as [f|] eqn:F.
  2: exfalso; unfold steps in G; rewrite P, F in G; specialize (G [Must (mkc Temp [] [lit "git"; lit "clone"; t_url t; lit "."]); Must (mkc Temp [] [lit "git"; lit "checkout"; t_rev t])] Fails _ eq_refl); discriminate G.
  set (U := map (fun p => May (mkc (Sub (t_subdir t)) [] [lit "cargo"; lit "update"; lit "-p"; p])) updated) in *.
  set (tg := fun x => test_fuzz feature t x "--display=corpus" display_ok ++ test_fuzz feature t x "--replay=corpus" replay_ok).
  set (pre := [Must (mkc Temp [] [lit "git"; lit "clone"; t_url t; lit "."]); Must (mkc Temp [] [lit "git"; lit "checkout"; t_rev t]); Must (mkc Temp [] [lit "git"; lit "apply"; f])] ++ U ++
    [Depends (Sub (t_subdir t)) (t_test_package t); Depends (Sub (t_subdir t)) (t_fuzz_package t); cargo_test feature t ["--no-run"; "--quiet"]%string]).
  assert (E : steps w feature t false = pre ++ cargo_test feature t [] :: flat_map tg (t_targets t)) by (unfold steps, pre; rewrite P, F; reflexivity).
  rewrite E in *. clear E. split.
  - exists p, f. rewrite C, cmds_app. unfold pre. rewrite cmds_app. cbn [cmds flat_map app]. eexists. repeat split. exact F.
  - set (run := mkc (Sub (t_subdir t)) [(lit "RUSTUP_TOOLCHAIN", None); (lit "TEST_FUZZ_WRITE", Some (lit "1"))] [lit "cargo"; lit "test"; lit "--package"; t_test_package t; lit "--features"; lit "test-fuzz/" ++ feature; lit "--"; lit "--nocapture"]).
    exists (cmds pre), (cmds (flat_map tg (t_targets t))), run. split; [rewrite C, cmds_app; reflexivity|]. split; [|split; [reflexivity|split; [right; now left|split; [reflexivity|split]]]].
    + specialize (G pre _ _ eq_refl). cbn [app] in G. change (cargo_test feature t []) with (Must run) in G. cbn [good] in G. destruct (answer w (cmds pre) run); [discriminate|discriminate G].
    + intros c I. unfold pre, U, updated in I. cbn [cmds flat_map app map] in I. repeat (destruct I as [<-|I]; [discriminate|]). destruct I.
    + intros x arg ok I K. apply in_split in I as (l & r & E). rewrite E in *. rewrite flat_map_app in *. cbn [flat_map] in *.
      assert (D : exists a b, tg x = a ++ Looks (of_tool x arg) ok :: b) by (unfold tg, test_fuzz; destruct K as [(-> & ->)|(-> & ->)];
        [eexists [_; _], _; reflexivity|eexists [_; _; _; _; _], _; reflexivity]).
      destruct D as (a & b & D). rewrite D in *. rewrite !cmds_app. exists (cmds (flat_map tg l) ++ cmds a).
      specialize (G (pre ++ cargo_test feature t [] :: flat_map tg l ++ a) (Looks (of_tool x arg) ok) (b ++ flat_map tg r)).
      cbn [app] in G. rewrite <- !app_assoc in G. cbn [app] in G. rewrite <- !app_assoc in G. specialize (G eq_refl).
      rewrite cmds_app, (cmds_app [_] _ : cmds (_ :: _) = _), cmds_app in G. cbn [good] in G. change (cmds [cargo_test feature t []]) with [run] in G.
      destruct (answer w (cmds pre ++ run :: cmds (flat_map tg l) ++ cmds a) (of_tool x arg)) as [out|] eqn:A; cbn [app] in G; rewrite A in G; [|discriminate G].
      eexists out, _. split; [|split; [reflexivity|exact G]]. rewrite <- !app_assoc. cbn [cmds flat_map app]. reflexivity.
Qed.
Print Assumptions C140_passed.

(** The commands that are then run, one after another, are these and no others. *)
Theorem C140_commands :
  forall (w : world) (feature : str) (t : test) (all : list cmd),
    take w [] (steps w feature t false) = (all, true) ->
    exists gits,
      let sub env argv := mkc (Sub (t_subdir t)) env argv in
      let cargo_test more := sub [(lit "RUSTUP_TOOLCHAIN", None); (lit "TEST_FUZZ_WRITE", Some (lit "1"))]
        ([lit "cargo"; lit "test"; lit "--package"; t_test_package t; lit "--features"; lit "test-fuzz/" ++ feature] ++ more ++ [lit "--"; lit "--nocapture"]) in
      let of_tool x arg := sub [(lit "RUST_LOG", Some (lit "debug"))]
        [lit "debug/cargo-test-fuzz"; lit "test-fuzz"; lit "--package"; t_fuzz_package t; lit "--features"; lit "test-fuzz/" ++ feature; x; lit arg] in
      let build := mkc Here [] [lit "cargo"; lit "build"; lit "--package=cargo-test-fuzz"] in
      List.length gits = 3 /\ (forall c, In c gits -> c_in c = Temp /\ c_env c = [] /\ hd [] (c_argv c) = lit "git") /\
      all = gits ++
        map (fun p => sub [] [lit "cargo"; lit "update"; lit "-p"; lit p])
          ["ahash@0.7.6"; "ahash@0.7.7"; "libc"; "num-bigint@0.4.0"; "proc-macro2@1"; "serde_json"; "tempfile"; "wasm-bindgen"]%string ++
        [cargo_test [lit "--no-run"; lit "--quiet"]; cargo_test []] ++
        flat_map (fun x => [build; of_tool x "--display=corpus"%string; build; of_tool x "--replay=corpus"%string]) (t_targets t).
Proof.
  intros w feature t all T. pose proof (C140_passed w feature t all T) as ((p & f & rest & P & F & _) & _).
  assert (C : all = cmds (steps w feature t false)) by (change all with (fst (all, true)); rewrite <- T; apply take_true; now rewrite T).
  exists [mkc Temp [] [lit "git"; lit "clone"; t_url t; lit "."]; mkc Temp [] [lit "git"; lit "checkout"; t_rev t]; mkc Temp [] [lit "git"; lit "apply"; f]].
  cbv zeta. split; [reflexivity|]. split; [intros c [<-|[<-|[<-|[]]]]; repeat split|].
  rewrite C. unfold steps. rewrite P, F. rewrite !cmds_app.
  assert (X : forall l, cmds (flat_map (fun x => test_fuzz feature t x "--display=corpus" display_ok ++ test_fuzz feature t x "--replay=corpus" replay_ok) l) =
    flat_map (fun x => [mkc Here [] [lit "cargo"; lit "build"; lit "--package=cargo-test-fuzz"];
      mkc (Sub (t_subdir t)) [(lit "RUST_LOG", Some (lit "debug"))] [lit "debug/cargo-test-fuzz"; lit "test-fuzz"; lit "--package"; t_fuzz_package t; lit "--features"; lit "test-fuzz/" ++ feature; x; lit "--display=corpus"];
      mkc Here [] [lit "cargo"; lit "build"; lit "--package=cargo-test-fuzz"];
      mkc (Sub (t_subdir t)) [(lit "RUST_LOG", Some (lit "debug"))] [lit "debug/cargo-test-fuzz"; lit "test-fuzz"; lit "--package"; t_fuzz_package t; lit "--features"; lit "test-fuzz/" ++ feature; x; lit "--replay=corpus"]]) l).
  { induction l as [|x l IH]; [reflexivity|]. cbn [flat_map]. rewrite cmds_app, IH. reflexivity. }
  rewrite X. reflexivity.
Qed.
Print Assumptions C140_commands.

(** A repository that is not run has only git's and cargo update's commands run for it, and passes
    exactly if the patch is there, git's three commands succeed, and afterwards both packages depend on
    test-fuzz as they should. *)
Theorem C140_no_run :
  forall (w : world) (feature : str) (t : test),
    let clone := mkc Temp [] [lit "git"; lit "clone"; t_url t; lit "."] in
    let checkout := mkc Temp [] [lit "git"; lit "checkout"; t_rev t] in
    let apply f := mkc Temp [] [lit "git"; lit "apply"; f] in
    (forall c, In c (fst (take w [] (steps w feature t true))) -> c_in c = Temp /\ hd [] (c_argv c) = lit "git" \/ exists p, c = mkc (Sub (t_subdir t)) [] [lit "cargo"; lit "update"; lit "-p"; p]) /\
    (snd (take w [] (steps w feature t true)) = true <->
     exists p f all, patch (t_url t) = Ret p /\ patches w p = Some f /\
       answer w [] clone <> None /\ answer w [clone] checkout <> None /\ answer w [clone; checkout] (apply f) <> None /\
       all = fst (take w [] (steps w feature t true)) /\ List.length all = 11 /\
       depends (metadata w all (Sub (t_subdir t))) (t_test_package t) = true /\ depends (metadata w all (Sub (t_subdir t))) (t_fuzz_package t) = true).
Proof.
  intros w feature t clone checkout apply. split.
  - intros c I. destruct (take_prefix w (steps w feature t true) []) as (a & b & E & K). rewrite K in I. cbn [app] in I.
    assert (J : In c (cmds (steps w feature t true))) by (rewrite E; apply in_or_app; now left). clear - J.
    unfold steps, updated in J. rewrite !cmds_app in J. apply in_app_or in J as [J|J]; [cbn in J; destruct J as [<-|[<-|[]]]; left; split; reflexivity|].
    apply in_app_or in J as [J|J].
    + left. destruct (patch (t_url t)) as [p| |]; [destruct (patches w p) as [f|]|..]; cbn in J; try contradiction. destruct J as [<-|[]]. split; reflexivity.
    + right. cbn [map cmds flat_map app] in J. repeat (destruct J as [<-|J]; [eexists; reflexivity|]). destruct J.
  - split.
    + intros S. pose proof (take_true _ _ _ S) as C. pose proof (proj1 (take_good _ _ _) S) as G. rewrite C in *. clear S C. cbn [app] in *.
      destruct (patch (t_url t)) as [p| |] eqn:P.
      2,3: exfalso; unfold steps in G; rewrite P in G; specialize (G [Must clone; Must checkout] Fails _ eq_refl); discriminate G.
      destruct (patches w p) as [f|] eqn:F.
      2: exfalso; unfold steps in G; rewrite P, F in G; specialize (G [Must clone; Must checkout] Fails _ eq_refl); discriminate G.
      exists p, f, (cmds (steps w feature t true)). unfold steps in *. rewrite P, F in *. split; [reflexivity|]. split; [reflexivity|].
      assert (G1 : good w [] (Must clone) = true) by exact (G [] _ _ eq_refl).
      assert (G2 : good w [clone] (Must checkout) = true) by exact (G [Must clone] _ _ eq_refl).
      assert (G3 : good w [clone; checkout] (Must (apply f)) = true) by exact (G [Must clone; Must checkout] _ _ eq_refl).
      cbn [good] in G1, G2, G3. split; [intros X; now rewrite X in G1|]. split; [intros X; now rewrite X in G2|]. split; [intros X; now rewrite X in G3|].
      split; [reflexivity|]. split; [reflexivity|]. split.
      * refine (_ (G ([Must clone; Must checkout; Must (apply f)] ++ map (fun p => May (mkc (Sub (t_subdir t)) [] [lit "cargo"; lit "update"; lit "-p"; p])) updated) _ _ eq_refl)). intros X. exact X.
      * refine (_ (G ([Must clone; Must checkout; Must (apply f)] ++ map (fun p => May (mkc (Sub (t_subdir t)) [] [lit "cargo"; lit "update"; lit "-p"; p])) updated ++ [Depends (Sub (t_subdir t)) (t_test_package t)]) _ _ eq_refl)). intros X. exact X.
    + intros (p & f & all & P & F & A1 & A2 & A3 & E & L & D1 & D2). revert E L. unfold steps. rewrite P, F. unfold updated. cbn [map app].
      do 3 (rewrite take_cons; cbn [good cmds flat_map app]). fold clone checkout (apply f).
      destruct (answer w [] clone); [|now destruct A1]. destruct (answer w [clone] checkout); [|now destruct A2]. destruct (answer w [clone; checkout] (apply f)); [|now destruct A3].
      do 8 (rewrite take_cons; cbn [good cmds flat_map app]). intros E L. revert E. rewrite !take_cons. cbn [good cmds flat_map app take].
      match goal with |- context [metadata w ?h _] => set (H := h) end.
      destruct (depends (metadata w H (Sub (t_subdir t))) (t_test_package t)) eqn:Q1; cbn [fst snd].
      * destruct (depends (metadata w H (Sub (t_subdir t))) (t_fuzz_package t)) eqn:Q2; cbn [fst snd]; [reflexivity|]. intros ->. cbn in *. congruence.
      * intros ->. cbn in *. congruence.
Qed.
Print Assumptions C140_no_run.

(** A repository that is run has the same commands run for it first as if it was not, and passes only
    if it would then pass. *)
Theorem C140_more :
  forall (w : world) (feature : str) (t : test),
    (exists more, fst (take w [] (steps w feature t false)) = fst (take w [] (steps w feature t true)) ++ more) /\
    (snd (take w [] (steps w feature t false)) = true -> snd (take w [] (steps w feature t true)) = true) /\
    (snd (take w [] (steps w feature t true)) = false -> take w [] (steps w feature t false) = take w [] (steps w feature t true)).
Proof.
  intros w feature t.
  assert (E : exists more, steps w feature t false = steps w feature t true ++ more) by (unfold steps; eexists; rewrite <- !app_assoc; cbn [app]; reflexivity).
  destruct E as (more & ->). rewrite take_app. destruct (take w [] (steps w feature t true)) as (h, b) eqn:T. cbn [fst snd]. destruct b.
  - pose proof (take_true w (steps w feature t true) []) as K. rewrite T in K. cbn [fst snd] in K. rewrite <- (K eq_refl). destruct (take_prefix w more h) as (a & b & _ & ->). split; [now exists a|]. split; [reflexivity|discriminate].
  - split; [exists []; now rewrite app_nil_r|]. split; [discriminate|reflexivity].
Qed.
Print Assumptions C140_more.

(** Whether cargo update succeeds makes no difference. *)
Theorem C140_updates :
  forall (w w' : world) (feature : str) (t : test) (skip : bool),
    (forall h d, metadata w h d = metadata w' h d) -> (forall p, patches w p = patches w' p) ->
    (forall h c, firstn 2 (c_argv c) <> [lit "cargo"; lit "update"] -> answer w h c = answer w' h c) ->
    take w [] (steps w feature t skip) = take w' [] (steps w' feature t skip).
Proof.
  intros w w' feature t skip M P A.
  assert (S : steps w feature t skip = steps w' feature t skip) by (unfold steps; destruct (patch (t_url t)) as [p| |]; [now rewrite P|..]; reflexivity).
  rewrite <- S. assert (N : forall c, In c (flat_map (fun s => match s with Must c | Looks c _ => [c] | _ => [] end) (steps w feature t skip)) -> firstn 2 (c_argv c) <> [lit "cargo"; lit "update"]).
  { intros c I. unfold steps, updated in I. rewrite !flat_map_app in I. rewrite !in_app_iff in I. destruct I as [I|[I|[I|[I|I]]]].
    - cbn in I. destruct I as [<-|[<-|[]]]; discriminate.
    - destruct (patch (t_url t)) as [p| |]; [destruct (patches w p) as [f|]|..]; cbn in I; try contradiction. destruct I as [<-|[]]. discriminate.
    - destruct I.
    - destruct I.
    - destruct skip; [destruct I|]. rewrite flat_map_app, in_app_iff in I. destruct I as [I|I]; [cbn in I; destruct I as [<-|[<-|[]]]; discriminate|].
      apply in_flat_map in I as (s & I & J). apply in_flat_map in I as (x & _ & I). cbn in I. repeat (destruct I as [<-|I]; [cbn in J; destruct J as [<-|[]] || destruct J; discriminate|]). destruct I. }
  clear S. revert N. cut (forall l h, (forall c, In c (flat_map (fun s => match s with Must c | Looks c _ => [c] | _ => [] end) l) -> firstn 2 (c_argv c) <> [lit "cargo"; lit "update"]) -> take w h l = take w' h l); [intros K N; exact (K _ [] N)|].
  induction l as [|s l IH]; intros h N; [reflexivity|]. rewrite !take_cons.
  assert (G : good w h s = good w' h s) by (destruct s as [c|c|d n|c ok|d|]; cbn [good]; rewrite ?M; try reflexivity; rewrite A; try reflexivity; apply N; now left).
  rewrite <- G. destruct (good w h s); [|reflexivity]. apply IH. intros c I. apply N. apply (in_or_app (match s with Must c | Looks c _ => [c] | _ => [] end)). right. exact I.
Qed.
Print Assumptions C140_updates.

(** The whole test passes exactly if it does for each repository; after one for which it does not,
    nothing is done for the others. *)
Theorem C140_all :
  forall (feature : str) (full nightly : bool) (l : list (world * test)),
    let run x := take (fst x) [] (steps (fst x) feature (snd x) (no_run full nightly (t_flags (snd x)))) in
    (snd (test_all feature full nightly l) = true <-> forall x, In x l -> snd (run x) = true) /\
    (forall a x b, l = a ++ x :: b -> (forall y, In y a -> snd (run y) = true) -> snd (run x) = false ->
       test_all feature full nightly l = (map (fun y => fst (run y)) (a ++ [x]), false)).
Proof.
  intros feature full nightly l run. split.
  - induction l as [|(w, t) l IH]; [split; [intros _ x []|reflexivity]|]. cbn [test_all]. change (take w [] (steps w feature t (no_run full nightly (t_flags t)))) with (run (w, t)).
    destruct (run (w, t)) as (h, b) eqn:R. destruct b.
    + destruct (test_all feature full nightly l) as (hs, r). cbn [snd] in *. rewrite IH. split; [intros H x [<-|I]; [now rewrite R|now apply H]|intros H x I; apply H; now right].
    + split; [discriminate|]. intros H. specialize (H (w, t) (or_introl eq_refl)). now rewrite R in H.
  - intros a x b ->. induction a as [|(w, t) a IH]; intros H F; cbn [app test_all map].
    + destruct x as (w, t). change (take w [] (steps w feature t (no_run full nightly (t_flags t)))) with (run (w, t)). destruct (run (w, t)) as (h, r). cbn in F. subst r. reflexivity.
    + change (take w [] (steps w feature t (no_run full nightly (t_flags t)))) with (run (w, t)). pose proof (H (w, t) (or_introl eq_refl)) as T. destruct (run (w, t)) as (h, r). cbn in T. subst r.
      rewrite IH; [reflexivity|intros y I; apply H; now right|exact F].
Qed.
Print Assumptions C140_all.

(** A package depends on test-fuzz as it should exactly if the first package of the name has test-fuzz
    among its dependencies and the first of these has a path. *)
Theorem C140_depends :
  forall (l : option (list package)) (name : str),
    depends l name = true <->
    exists a p b c d e path, l = Some (a ++ p :: b) /\ (forall q, In q a -> p_name q <> name) /\ p_name p = name /\
      p_deps p = c ++ d :: e /\ (forall q, In q c -> d_name q <> lit "test-fuzz") /\ d_name d = lit "test-fuzz" /\ d_path d = Some path.
Proof.
  assert (F : forall (A : Type) (f : A -> str) n (l : list A) x, find (fun y => str_eqb (f y) n) l = Some x <-> exists a b, l = a ++ x :: b /\ (forall q, In q a -> f q <> n) /\ f x = n).
  { intros A f n l x. induction l as [|y l IH]; cbn [find].
    - split; [discriminate|]. intros (a & b & E & _). destruct a; discriminate E.
    - destruct (str_eqb (f y) n) eqn:E.
      + apply str_eqb_eq in E. split.
        * intros K. injection K as <-. exists [], l. split; [reflexivity|]. split; [intros q []|exact E].
        * intros (a & b & K & N & _). destruct a as [|z a]; cbn in K; injection K as <- ->; [reflexivity|]. destruct (N y (or_introl eq_refl) E).
      + assert (E' : f y <> n) by (intros K; apply str_eqb_eq in K; congruence). rewrite IH. split.
        * intros (a & b & -> & N & X). exists (y :: a), b. split; [reflexivity|]. split; [intros q [<-|I]; [exact E'|now apply N]|exact X].
        * intros (a & b & K & N & X). destruct a as [|z a]; cbn in K; injection K as <- ->; [contradiction|]. exists a, b. split; [reflexivity|]. split; [intros q I; apply N; now right|exact X]. }
  intros l name. unfold depends. split.
  - destruct l as [ps|]; [|discriminate]. destruct (find (fun p => str_eqb (p_name p) name) ps) as [p|] eqn:P; [|discriminate]. destruct (find (fun d => str_eqb (d_name d) (lit "test-fuzz")) (p_deps p)) as [d|] eqn:D; [|discriminate].
    destruct (d_path d) as [path|] eqn:H; [|discriminate]. intros _. apply F in P as (a & b & -> & P1 & P2). apply F in D as (c & e & D & D1 & D2).
    exists a, p, b, c, d, e, path. repeat (split; [assumption || reflexivity|]). exact H.
  - intros (a & p & b & c & d & e & path & -> & P1 & P2 & D & D1 & D2 & H).
    assert (P : find (fun p => str_eqb (p_name p) name) (a ++ p :: b) = Some p) by (apply F; exists a, b; auto). rewrite P.
    assert (Q : find (fun d => str_eqb (d_name d) (lit "test-fuzz")) (p_deps p) = Some d) by (apply F; exists c, e; auto). now rewrite Q, H.
Qed.
Print Assumptions C140_depends.

(** So another dependency on test-fuzz, of the same package but without a path, goes unnoticed, and it
    matters which of the two is first. *)
Theorem C140_every_refuted :
  exists (p : package) (d : dep), In d (p_deps p) /\ d_name d = lit "test-fuzz" /\ d_path d = None /\
    depends (Some [p]) (p_name p) = true /\ depends (Some [mkp (p_name p) (rev (p_deps p))]) (p_name p) = false.
Proof.
  exists (mkp (lit "pool") [mkd (lit "test-fuzz") (Some (lit "../../test-fuzz")); mkd (lit "test-fuzz") None]), (mkd (lit "test-fuzz") None).
  split; [right; now left|]. repeat split.
Qed.
Print Assumptions C140_every_refuted.

(** A repository with one target, in a world where everything succeeds and an entry is printed, in one
    where the patch does not apply, and in one where nothing is recorded. *)
Example C140_example :
  let t := mkt (mkf true false) (lit "https://g.com/a/pool") (lit "1f") (lit "sub") (lit "pool") (lit "pool") [lit "import"] in
  let entry (c : cmd) := shown (repeat "a"%char 40, if str_eqb (List.last (c_argv c) []) (lit "--display=corpus") then lit "Args { x: 1 }" else lit "Ret(Ok(()))") in
  let ps := Some [mkp (lit "pool") [mkd (lit "log") None; mkd (lit "test-fuzz") (Some (lit "../.."))]] in
  let fine := mkw (fun _ c => Some (entry c)) (fun _ _ => ps) (fun p => if str_eqb p (lit "pool.patch") then Some (lit "/p/pool.patch") else None) in
  let stale := mkw (fun _ c => if str_eqb (nth 1 (c_argv c) []) (lit "apply") then None else Some (entry c)) (fun _ _ => ps) (patches fine) in
  let silent := mkw (fun _ c => if str_eqb (nth 0 (c_argv c) []) tool then Some [] else Some (entry c)) (fun _ _ => ps) (patches fine) in
  let result full w := let (h, ok) := test_all (lit "serde_postcard") full false [(w, t); (fine, t)] in (map (@List.length cmd) h, ok) in
  result true fine = ([17; 17], true) /\ result false fine = ([11; 11], true) /\
  result true stale = ([3], false) /\ result false stale = ([3], false) /\
  result true silent = ([15], false) /\ result false silent = ([11; 11], true).
Proof. vm_compute. repeat split; reflexivity. Qed.
