(** Theorems about versions as text (C120). *)
From Coq Require Import Ascii String List Bool Arith NArith Lia.
From Verif Require Import Base Utf8 Lossy Decimal Semver SemverText Build.
Import ListNotations.
Local Open Scope N_scope.

(** C120: exactly the texts of well-formed versions are accepted as versions, each as the version
    it is the text of. *)
Theorem C120_read :
  forall (s : str) (v : tversion), parse s = Some v <-> written v s /\ well_formed v.
Proof. exact parse_spec. Qed.
Print Assumptions C120_read.

(** C120: a version that has been read is printed as the text it has been read from, and what is
    printed is read as the same version. *)
Theorem C120_round_trip :
  (forall (s : str) (v : tversion), parse s = Some v -> show v = s) /\
  (forall v : tversion, written v (show v)) /\
  (forall v : tversion, well_formed v -> parse (show v) = Some v).
Proof.
  split; [|split; [exact show_written|]].
  - intros s v H. apply parse_spec in H as [W _]. exact (written_unique _ _ _ (show_written v) W).
  - intros v W. apply parse_spec. split; [apply show_written|exact W].
Qed.
Print Assumptions C120_round_trip.

(** C120: so different versions are printed differently. *)
Theorem C120_injective :
  forall v w : tversion, well_formed v -> well_formed w -> show v = show w -> v = w.
Proof.
  intros v w Wv Ww E. destruct C120_round_trip as (_ & _ & R). pose proof (R v Wv) as A. rewrite E, (R w Ww) in A. congruence.
Qed.
Print Assumptions C120_injective.

(** C120: a version, printed and read as a requirement, is never refused: the conversion does not
    panic.  It is the caret requirement with the version's numbers and prerelease; build metadata
    is dropped. *)
Theorem C120_requirement :
  forall v : tversion, well_formed v ->
    as_version_req v = Ret [{| c_op := Caret; c_major := t_major v; c_minor := Some (t_minor v); c_patch := Some (t_patch v); c_pre := t_pre v |}].
Proof. exact as_version_req_eq. Qed.
Print Assumptions C120_requirement.

(** C120: comparing prereleases as text, numbers by length first, is the order of semantic
    versioning, in which numbers are compared by value. *)
Theorem C120_precedence :
  forall a b : list str, Forall pre_word a -> Forall pre_word b -> a <> [] -> b <> [] ->
    (tpre_cmp a b = Lt <-> idents_lt (map classify a) (map classify b)) /\
    (tpre_cmp a b = Gt <-> idents_lt (map classify b) (map classify a)) /\
    (tpre_cmp a b = Eq <-> a = b).
Proof.
  intros a b Fa Fb Na Nb.
  assert (E : tpre_cmp a b = idents_cmp (map classify a) (map classify b)).
  { rewrite <- (segs_cmp_eq a b Fa Fb). destruct a; [contradiction|]. destruct b; [contradiction|]. reflexivity. }
  assert (I : map classify a = map classify b -> a = b).
  { clear E Na Nb. revert b Fb. induction Fa as [|x a Px Fa IH]; intros [|y b] Fb Q; try discriminate Q; [reflexivity|].
    inversion Fb as [|? ? Py Fb']; subst. cbn [map] in Q. injection Q as Q1 Q2. f_equal; [|now apply IH].
    unfold classify in Q1. destruct Px as [[Nx _] Zx], Py as [[Ny _] Zy].
    destruct (forallb digit_b x) eqn:Dx, (forallb digit_b y) eqn:Dy; try discriminate Q1; [|congruence].
    apply digits_spec in Dx, Dy. injection Q1 as Q1.
    apply (numeral_unique (value x)); repeat split; auto. }
  pose proof (idents_cmp_spec (map classify a) (map classify b)) as S0. rewrite E.
  destruct (idents_cmp (map classify a) (map classify b)) eqn:C.
  - split; [|split].
    + split; [discriminate|]. intros L. rewrite S0 in L. apply idents_lt_irrefl in L as [_ L]. now destruct L.
    + split; [discriminate|]. intros L. rewrite S0 in L. apply idents_lt_irrefl in L as [_ L]. now destruct L.
    + split; [intros _; now apply I|reflexivity].
  - apply idents_lt_irrefl in S0 as K. destruct K as [K1 K2]. split; [|split]; (split; [try discriminate; auto|]).
    + reflexivity.
    + intros L. contradiction.
    + intros ->. now destruct K2.
  - apply idents_lt_irrefl in S0 as K. destruct K as [K1 K2]. split; [|split]; (split; [try discriminate; auto|]).
    + intros L. contradiction.
    + reflexivity.
    + intros ->. now destruct K2.
Qed.
Print Assumptions C120_precedence.

(** C120: the check on texts does not panic, and it says what the check of C40 and C41 says of the
    numbers and prereleases, in these words. *)
Theorem C120_check :
  forall (name dependency : str) (dv : option tversion) (binary : str) (bv : tversion),
    (forall d, dv = Some d -> well_formed d) -> well_formed bv ->
    let r := check_dependency_version name dependency (option_map core dv) binary (core bv) in
    exists said error,
      check_text name dependency dv binary bv = Ret (said, error) /\
      (error = None <-> snd r = None) /\
      (fst r = [] -> said = []) /\
      (forall d, dv = Some d -> fst r <> [] ->
         said = [lit "`" ++ name ++ lit "` depends on `" ++ dependency ++ lit " " ++ show d ++ lit "`, which is newer than `"
                 ++ binary ++ lit " " ++ show bv ++ lit "`. Consider upgrading with `cargo install " ++ binary
                 ++ lit " --force --version '>=" ++ show d ++ lit "'`."]) /\
      (forall d e, dv = Some d -> error = Some e ->
         e = lit "`" ++ name ++ lit "` depends on `" ++ dependency ++ lit " " ++ show d
             ++ lit "`, which is incompatible with `" ++ binary ++ lit " " ++ show bv ++ lit "`.") /\
      (dv = None -> said = [] /\ error = Some (lit "`" ++ name ++ lit "` does not depend on `" ++ dependency ++ lit "`")).
Proof.
  intros name dependency dv binary bv Wd Wb. destruct dv as [d|].
  - specialize (Wd d eq_refl). cbn [option_map]. unfold check_text, check_dependency_version.
    rewrite (as_version_req_eq d Wd), (as_version_req_eq bv Wb). cbn [bind].
    rewrite (matches_req_eq d bv Wd Wb), (matches_req_eq bv d Wb Wd). cbn [v_pre core].
    destruct (t_pre bv) as [|x p] eqn:Ep; cbn [map andb bind];
      destruct (req_matches (core d) (core bv)) eqn:M1; destruct (req_matches (core bv) (core d)) eqn:M2;
      cbn [orb negb andb bind fst snd]; do 2 eexists; (split; [reflexivity|]);
      (split; [split; congruence|]); (split; [try reflexivity; try congruence|]);
      (split; [intros d' [= <-] K; try reflexivity; now destruct K|]);
      (split; [intros d' e [= <-] K; try discriminate K; now injection K as <-|discriminate]).
  - cbn [option_map check_dependency_version check_text fst snd]. do 2 eexists. split; [reflexivity|].
    split; [split; discriminate|]. split; [reflexivity|]. split; [discriminate|]. split; [discriminate|]. auto.
Qed.
Print Assumptions C120_check.

(** C120: build metadata makes no difference to the verdict. *)
Theorem C120_build_irrelevant :
  forall (name dependency : str) (d d' : tversion) (binary : str) (b b' : tversion) said error said' error',
    well_formed d -> well_formed d' -> well_formed b -> well_formed b' ->
    (t_major d, t_minor d, t_patch d, t_pre d) = (t_major d', t_minor d', t_patch d', t_pre d') ->
    (t_major b, t_minor b, t_patch b, t_pre b) = (t_major b', t_minor b', t_patch b', t_pre b') ->
    check_text name dependency (Some d) binary b = Ret (said, error) ->
    check_text name dependency (Some d') binary b' = Ret (said', error') ->
    (error = None <-> error' = None) /\ (said = [] <-> said' = []).
Proof.
  intros name dependency d d' binary b b' said error said' error' Wd Wd' Wb Wb' Ed Eb C C'.
  assert (Q : core d = core d') by (unfold core; injection Ed as -> -> -> ->; reflexivity).
  assert (Q' : core b = core b') by (unfold core; injection Eb as -> -> -> ->; reflexivity).
  destruct (C120_check name dependency (Some d) binary b) as (s1 & e1 & K1 & A1 & B1 & D1 & _); [intros x [= <-]; exact Wd|exact Wb|].
  destruct (C120_check name dependency (Some d') binary b') as (s2 & e2 & K2 & A2 & B2 & D2 & _); [intros x [= <-]; exact Wd'|exact Wb'|].
  rewrite C in K1. rewrite C' in K2. injection K1 as <- <-. injection K2 as <- <-. cbn [option_map] in *. rewrite Q, Q' in *.
  split; [rewrite A1, A2; reflexivity|].
  destruct (fst (check_dependency_version name dependency (Some (core d')) binary (core b'))) eqn:F.
  - rewrite (B1 eq_refl), (B2 eq_refl). reflexivity.
  - rewrite (D1 d eq_refl), (D2 d' eq_refl) by discriminate. split; discriminate.
Qed.
Print Assumptions C120_build_irrelevant.

(** C120: the requirement that the hint suggests is a readable one, and the dependency's version
    satisfies it, whether or not it is a prerelease. *)
Theorem C120_suggestion :
  forall d : tversion, well_formed d ->
    exists r, read_req (lit ">=" ++ show d) = Some r /\ matches_req r d = true /\
      (forall v, well_formed v -> release (core v) -> (matches_req r v = true <-> ~ older (core v) (core d))).
Proof.
  intros d W. exists [mkc GreaterEq (t_major d) (Some (t_minor d)) (Some (t_patch d)) (t_pre d)].
  split; [exact (written_req d (show d) GreaterEq (show_written d) W)|].
  unfold matches_req, satisfied, greater_eq, tpre_compatible. cbn [forallb existsb c_op c_major c_minor c_patch c_pre].
  split.
  - rewrite !N.eqb_refl. cbn [andb orb]. destruct (list_eq_dec str_dec (t_pre d) (t_pre d)) as [_|K]; [|now destruct K].
    cbn [andb orb]. destruct (t_pre d); reflexivity.
  - intros v Wv R. unfold release, core in R. cbn [v_pre] in R.
    assert (P : t_pre v = []) by (destruct (t_pre v); [reflexivity|discriminate R]). rewrite P.
    rewrite !andb_true_r. unfold older, core_lt, core_eq, core. cbn [v_major v_minor v_patch v_pre]. rewrite P. cbn [map].
    assert (T : (exists q, t_pre d = q) ) by eauto. destruct T as [q Eq]. rewrite Eq. clear Eq.
    destruct (N.eqb_spec (t_major v) (t_major d)) as [E1|E1]; cbn [negb andb orb];
      [|rewrite N.ltb_lt; split; [intros H [K|(K & _)]; lia|intros H; assert (~ t_major v < t_major d) by (intros K; apply H; left; left; exact K); lia]].
    destruct (N.eqb_spec (t_minor v) (t_minor d)) as [E2|E2]; cbn [negb andb orb];
      [|rewrite N.ltb_lt; split; [intros H [K|(K & _)]; lia|intros H; assert (~ t_minor v < t_minor d) by (intros K; apply H; left; right; split; [exact E1|left; exact K]); lia]].
    destruct (N.eqb_spec (t_patch v) (t_patch d)) as [E3|E3]; cbn [negb andb orb];
      [|rewrite N.ltb_lt; split; [intros H [K|(K & _)]; lia|intros H; assert (~ t_patch v < t_patch d) by (intros K; apply H; left; right; split; [exact E1|right; auto]); lia]].
    split; [|intros _; destruct q; cbn; [|reflexivity]; destruct (list_eq_dec str_dec [] []) as [_|K]; [reflexivity|now destruct K]].
    intros _ [K|(_ & K & _)]; [lia|]. now apply K.
Qed.
Print Assumptions C120_suggestion.

(** C120: cargo-afl's version, told as text, is the version of the text. *)
Theorem C120_cargo_afl :
  forall (out : bytes) (v : version),
    cached_cargo_afl_version (fun s => option_map core (parse s)) (Some out) = Ret v ->
    exists t, well_formed t /\ core t = v /\ occurs (show t) (lossy out).
Proof.
  intros out v H. unfold cached_cargo_afl_version, cargo_afl_version in H.
  destruct (strip_prefix (lit "cargo-afl ") (lossy out)) as [s|] eqn:S0; [|discriminate H]. apply strip_prefix_spec in S0.
  unfold first_word in H.
  assert (K : forall s, exists a, s = a ++ skip_ws s).
  { clear. induction s as [|c s [a IH]]; [now exists []|]. cbn [skip_ws]. destruct (is_ascii_ws c); [|now exists []].
    exists (c :: a). cbn [app]. now f_equal. }
  assert (L : forall s, exists b, s = take_word s ++ b).
  { clear. induction s as [|c s [b IH]]; [now exists []|]. cbn [take_word]. destruct (is_ascii_ws c); [now exists (c :: s)|].
    exists b. cbn [app]. now f_equal. }
  destruct (K s) as [a Ea]. destruct (L (skip_ws s)) as [b Eb].
  destruct (take_word (skip_ws s)) as [|c w] eqn:T; [discriminate H|].
  destruct (parse (c :: w)) as [t|] eqn:P; [|discriminate H]. cbn [option_map] in H. exists t.
  assert (Sh : show t = c :: w) by now apply C120_round_trip. apply parse_spec in P as [_ W].
  split; [exact W|]. split; [congruence|]. exists (lit "cargo-afl " ++ a), b. rewrite Sh, S0, Ea, Eb at 1.
  rewrite <- !app_assoc. reflexivity.
Qed.
Print Assumptions C120_cargo_afl.

Example C120_example :
  parse (lit "1.20.0-rc.1+build.007") = Some (mkt 1 20 0 [lit "rc"; lit "1"] [lit "build"; lit "007"]) /\
  parse (lit "1.2") = None /\ parse (lit "01.2.3") = None /\ parse (lit "1.2.3-") = None /\ parse (lit "1.2.3-rc.01") = None /\
  parse (lit "1.2.3 ") = None /\ parse (lit "18446744073709551616.0.0") = None /\
  show (mkt 1 20 0 [lit "rc"; lit "1"] [lit "build"; lit "007"]) = lit "1.20.0-rc.1+build.007" /\
  tpre_cmp [lit "9"] [lit "10"] = Lt /\ tpre_cmp [lit "a9"] [lit "a10"] = Gt /\
  check_text (lit "foo") (lit "afl") (Some (mkt 0 15 3 [] [])) (lit "cargo-afl") (mkt 0 15 2 [] [lit "x"]) =
    Ret ([lit "`foo` depends on `afl 0.15.3`, which is newer than `cargo-afl 0.15.2+x`. Consider upgrading with `cargo install cargo-afl --force --version '>=0.15.3'`."], None).
Proof. vm_compute. repeat split. Qed.
