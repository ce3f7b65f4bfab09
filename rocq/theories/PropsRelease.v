(** Theorems about the scripts with which a release is prepared (C123). *)
From Coq Require Import Ascii String List Bool Arith NArith Lia.
From Verif Require Import Base Decimal Semver SemverText InstallTest Versions PropsSemverText PropsVersions Release.
Import ListNotations.
Local Open Scope N_scope.

(** A text that may stand for a version or a requirement. *)
Definition plain_text (s : str) : Prop := ~ In quote s /\ ~ In " "%char s.
(** The name of the package that an entry is about. *)
Definition entry_name (key : str) (package : option str) : str := match package with Some p => p | None => key end.

Lemma last_space (x : str) : last_of (x ++ lit " ") = Some " "%char.
Proof. unfold last_of. rewrite rev_app_distr. reflexivity. Qed.

(** The part of an entry before its requirement. *)
Definition entry_front (key path : str) (package : option str) : str :=
  key ++ lit " = { path = """ ++ path ++ lit """, " ++ match package with Some p => lit "package = """ ++ p ++ lit """, " | None => [] end.

Lemma entry_split key path package text : entry_line key path package text = entry_front key path package ++ wanted ++ text ++ lit """" ++ lit " }".
Proof. unfold entry_line, entry_front. rewrite <- !app_assoc. reflexivity. Qed.

Lemma front_space key path package : exists x, entry_front key path package = x ++ lit " ".
Proof.
  unfold entry_front. destruct package as [p|].
  - exists (key ++ lit " = { path = """ ++ path ++ lit """, " ++ lit "package = """ ++ p ++ lit ""","). rewrite <- !app_assoc. reflexivity.
  - exists (key ++ lit " = { path = """ ++ path ++ lit ""","). rewrite <- !app_assoc. reflexivity.
Qed.

Lemma no_wanted_end : ~ occurs wanted (lit " }").
Proof. intros (a & b & E). apply (f_equal (@List.length _)) in E. rewrite !app_length in E. cbn in E. lia. Qed.

Lemma set_entry new key path package old : plain_text old ->
  sed (set_requirement new) (entry_line key path package old) = entry_line key path package (lit "=" ++ new).
Proof.
  intros [Q So]. rewrite !entry_split. destruct (front_space key path package) as [x E].
  rewrite set_requirement_at; [|rewrite E, last_space; reflexivity|exact Q|exact So|exact no_wanted_end].
  unfold wanted. rewrite <- !app_assoc. reflexivity.
Qed.

Lemma by_name_entry key path package text : (exists t, key = lit "test-fuzz" ++ t) -> line_matches by_name (entry_line key path package text) = true.
Proof.
  intros [t ->]. apply full_spec. cbn [p_start p_atoms p_end by_name]. change ([] ++ lits (lit "test-fuzz") ++ [Many None]) with (lits (lit "test-fuzz") ++ [Many None]).
  unfold entry_line. rewrite <- app_assoc. apply Matches_put, all_rest.
Qed.

Lemma by_package_entry key path p text : (exists t, p = lit "test-fuzz" ++ t) -> line_matches by_package (entry_line key path (Some p) text) = true.
Proof.
  intros [t ->]. apply full_spec. cbn [p_start p_atoms p_end by_package].
  set (rest := lit """, " ++ lit "version = """ ++ text ++ lit """ }").
  assert (E : entry_line key path (Some (lit "test-fuzz" ++ t)) text =
              ((key ++ lit " = { path = """ ++ path ++ lit """,") ++ lit " ") ++ lit "package = ""test-fuzz" ++ t ++ rest).
  { unfold entry_line, rest. rewrite <- !app_assoc. reflexivity. }
  rewrite E. change ([Many None] ++ ([Edge] ++ lits (lit "package = ""test-fuzz")) ++ [Many None]) with (Many None :: Edge :: (lits (lit "package = ""test-fuzz") ++ [Many None])).
  apply Matches_put_many; [discriminate|]. split; [|apply Matches_put, all_rest].
  change (edge (last_of ((key ++ lit " = { path = """ ++ path ++ lit """,") ++ lit " ")) (lit "package" ++ lit " = ""test-fuzz" ++ t ++ rest) = true).
  rewrite last_space. reflexivity.
Qed.

Lemma entry_not_version key path package text old : entry_line key path package text <> version_line old.
Proof.
  intros E. apply (f_equal (@rev _)) in E. rewrite entry_split in E. unfold version_line in E. rewrite !rev_app_distr in E. cbn in E. discriminate E.
Qed.

Lemma nth_map {A B} (f : A -> B) l i x : nth_error l i = Some x -> nth_error (map f l) i = Some (f x).
Proof. apply map_nth_error. Qed.

(** C123: in every manifest but the excepted ones, the line with the package's version is set to the
    version given, whatever it was, and no other line is changed, except in the manifest of the
    workspace. *)
Theorem C123_packages :
  forall (new : str) (m : manifest) (i : nat) (line : str),
    m_path m <> lit "./Cargo.toml" -> nth_error (m_lines m) i = Some line ->
    let after := nth_error (m_lines (update_manifest new m)) i in
    ((exists a c b, m_path m = a ++ lit "serde_combinators/Cargo" ++ c :: lit "toml" ++ b) -> after = Some line) /\
    (~ (exists a c b, m_path m = a ++ lit "serde_combinators/Cargo" ++ c :: lit "toml" ++ b) ->
     (forall old, ~ In quote old -> line = version_line old -> after = Some (version_line new)) /\
     ((forall old, ~ In quote old -> line <> version_line old) -> after = Some line)).
Proof.
  intros new m i line Np I after.
  assert (L : line_matches left_alone (m_path m) = true <-> exists a c b, m_path m = a ++ lit "serde_combinators/Cargo" ++ c :: lit "toml" ++ b).
  { unfold line_matches. rewrite full_spec. cbn [p_start p_atoms p_end left_alone].
    change ([Many None] ++ (lits (lit "serde_combinators/Cargo") ++ [Dot] ++ lits (lit "toml")) ++ [Many None])
      with (Many None :: (lits (lit "serde_combinators/Cargo") ++ Dot :: (lits (lit "toml") ++ [Many None]))).
    rewrite Matches_many. split.
    - intros (a & s & -> & _ & H). apply Matches_lits in H as (s1 & -> & H). destruct H as (c & s2 & -> & H). fold Matches in H.
      apply Matches_lits in H as (s3 & -> & _). now exists a, c, s3.
    - intros (a & c & b & ->). eexists a, _. split; [reflexivity|]. split; [discriminate|]. apply Matches_put. eexists c, _. split; [reflexivity|]. fold Matches.
      apply Matches_put, all_rest. }
  assert (P : str_eqb (m_path m) (lit "./Cargo.toml") = false).
  { destruct (str_eqb (m_path m) (lit "./Cargo.toml")) eqn:K; [|reflexivity]. apply str_eqb_eq in K. contradiction. }
  assert (A : after = nth_error (if line_matches left_alone (m_path m) then m_lines m else map (sed (set_package new)) (m_lines m)) i).
  { unfold after, update_manifest. cbn [m_lines]. now rewrite P. }
  rewrite A, <- L. destruct (line_matches left_alone (m_path m)).
  - split; [intros _; exact I|]. intros K. destruct K. reflexivity.
  - split; [discriminate|]. intros _. split.
    + intros old Q ->. rewrite (nth_map _ _ _ _ I). f_equal. now apply set_package_line.
    + intros H. rewrite (nth_map _ _ _ _ I). f_equal. now apply set_package_other.
Qed.
Print Assumptions C123_packages.

(** C123: in the manifest of the workspace, each requirement on a package called test-fuzz…, under
    its own name or another one, is set to the exact version. *)
Theorem C123_requirements :
  forall (new : str) (m : manifest) (i : nat) (key path : str) (package : option str) (old : str),
    m_path m = lit "./Cargo.toml" -> plain_text new -> plain_text old ->
    nth_error (m_lines m) i = Some (entry_line key path package old) ->
    (exists t, entry_name key package = lit "test-fuzz" ++ t) ->
    nth_error (m_lines (update_manifest new m)) i = Some (entry_line key path package (lit "=" ++ new)).
Proof.
  intros new m i key path package old Pm [Qn Sn] Po I N0. unfold update_manifest. rewrite Pm.
  change (line_matches left_alone (lit "./Cargo.toml")) with false. change (str_eqb (lit "./Cargo.toml") (lit "./Cargo.toml")) with true. cbv iota. cbn [m_lines].
  assert (Pn : plain_text (lit "=" ++ new)).
  { split; intros K; apply in_app_iff in K as [[K|[]]|K]; try discriminate K; contradiction. }
  rewrite (nth_map _ _ _ _ (nth_map _ _ _ _ (nth_map _ _ _ _ I))). f_equal.
  rewrite set_package_other by (intros o _; apply entry_not_version).
  assert (G : forall p text, plain_text text -> guarded p (set_requirement new) (entry_line key path package text) =
            if line_matches p (entry_line key path package text) then entry_line key path package (lit "=" ++ new) else entry_line key path package text).
  { intros p text Pt. unfold guarded. now rewrite set_entry. }
  rewrite (G by_name old Po). destruct package as [q|]; cbn [entry_name] in N0.
  - destruct (line_matches by_name (entry_line key path (Some q) old)).
    + rewrite (G by_package _ Pn). now rewrite (by_package_entry key path q _ N0).
    + rewrite (G by_package _ Po). now rewrite (by_package_entry key path q _ N0).
  - rewrite (by_name_entry key path None old N0). rewrite (G by_package _ Pn).
    now destruct (line_matches by_package (entry_line key path None (lit "=" ++ new))).
Qed.
Print Assumptions C123_requirements.

(** C123: so if Cargo reads the packages' versions and requirements from those lines, both tests of
    C122 succeed afterwards, for every version given. *)
Theorem C123_tests :
  forall (v : tversion) (ps : list package),
    well_formed v ->
    (forall p, In p ps -> k_name p <> lit "serde_combinators" ->
       well_formed (k_version p) /\
       exists m i old, m_path m <> lit "./Cargo.toml" /\ ~ (exists a c b, m_path m = a ++ lit "serde_combinators/Cargo" ++ c :: lit "toml" ++ b) /\
         ~ In quote old /\ nth_error (m_lines m) i = Some (version_line old) /\
         nth_error (m_lines (update_manifest (show v) m)) i = Some (version_line (show (k_version p)))) ->
    (forall p d, In p ps -> In d (k_deps p) -> looked_at d ->
       exists m i key path package old text, m_path m = lit "./Cargo.toml" /\ plain_text old /\ entry_name key package = d_name d /\
         nth_error (m_lines m) i = Some (entry_line key path package old) /\
         nth_error (m_lines (update_manifest (show v) m)) i = Some (entry_line key path package text) /\
         read_exact text = Some (d_req d)) ->
    Forall (fun p => well_formed (k_version p)) ps ->
    versions_are_equal (show v) ps = true /\ versions_are_exact_and_match (show v) ps = Ret true.
Proof.
  intros v ps W Vs Ds F.
  assert (Pv : plain_text (show v)).
  { split; [now apply show_no_quote|]. intros I. pose proof (show_chars v W) as C. rewrite Forall_forall in C. specialize (C _ I).
    destruct C as [[C|[C|[C|C]]]|[C|C]]; try discriminate C; [unfold is_digit in C; cbn in C; lia|cbn in C; lia|cbn in C; lia]. }
  split.
  - apply C122_equal; [exact W|exact F|]. intros p I N0. destruct (Vs p I N0) as (Wp & m & i & old & Np & Nl & Q & L & L').
    destruct (C123_packages (show v) m i (version_line old) Np L) as (_ & K). destruct (K Nl) as (K1 & _). specialize (K1 old Q eq_refl).
    rewrite K1 in L'. injection L' as E. apply app_inv_tail in E. symmetry. now apply C120_injective.
  - destruct (C122_exact_and_match v ps W) as (b & E & S0). rewrite E. f_equal. apply S0. intros p d Ip Id L.
    destruct (Ds p d Ip Id L) as (m & i & key & path & package & old & text & Pm & Po & En & L1 & L2 & R). destruct L as [(t & Et) _].
    rewrite (C123_requirements (show v) m i key path package old Pm Pv Po L1) in L2 by (exists t; congruence).
    assert (T : text = lit "=" ++ show v).
    { assert (E2 : entry_line key path package (lit "=" ++ show v) = entry_line key path package text) by congruence.
      rewrite !entry_split in E2. apply app_inv_head, app_inv_head in E2. rewrite !app_assoc in E2. do 2 apply app_inv_tail in E2. symmetry. exact E2. }
    subst text. unfold read_exact in R. assert (Sp : strip_prefix (lit "=") (lit "=" ++ show v) = Some (show v)) by now apply strip_prefix_spec.
    rewrite Sp in R. destruct C120_round_trip as (_ & _ & Rt). rewrite (Rt v W) in R. cbn [option_map] in R. injection R as R. rewrite <- R.
    split; [now repeat eexists|]. unfold req_admits, comp_matches, exact, compatible_pre. cbn [forallb existsb r_op r_major r_minor r_patch r_pre same_number].
    rewrite !N.eqb_refl. destruct (list_eq_dec str_dec (t_pre v) (t_pre v)) as [_|K]; [|now destruct K]. destruct (t_pre v); reflexivity.
Qed.
Print Assumptions C123_tests.

(** C123: but a manifest that gives a dependency a table of its own loses its requirement: the line
    in it looks like the package's version. *)
Theorem C123_table_refuted :
  exists (m : manifest) (new old : str),
    m_path m = lit "./fuzzable/Cargo.toml" /\ In (lit "[dependencies.serde]") (m_lines m) /\ old <> new /\
    In (version_line old) (m_lines m) /\ ~ In (version_line old) (m_lines (update_manifest new m)).
Proof.
  exists (mkm (lit "./fuzzable/Cargo.toml") [version_line (lit "8.1.1"); lit "[dependencies.serde]"; version_line (lit "1.0")]), (lit "8.1.2"), (lit "1.0").
  split; [reflexivity|]. split; [right; now left|]. split; [discriminate|]. split; [right; right; now left|].
  vm_compute. intros K. repeat (destruct K as [K|K]; [discriminate K|]). exact K.
Qed.
Print Assumptions C123_table_refuted.

(** ** The changelog *)

Lemma as_pattern_spec v : forall prev w, Matches (as_pattern v) prev w <-> like v w.
Proof.
  induction v as [|c v IH]; intros prev w; cbn [as_pattern map Matches like].
  - destruct w; split; try reflexivity; try discriminate; contradiction.
  - fold (as_pattern v). destruct (Ascii.eqb_spec c "."%char) as [->|N0]; cbn [Matches]; destruct w as [|d w]; split.
    + intros (x & s & K & _). discriminate K.
    + contradiction.
    + intros (x & s & K & H). injection K as <- <-. apply IH in H. auto.
    + intros [_ H]. exists d, w. split; [reflexivity|]. now apply IH.
    + intros (s & K & _). discriminate K.
    + contradiction.
    + intros (s & K & H). injection K as -> <-. apply IH in H. auto.
    + intros [[K|K] H]; [contradiction|]. subst d. exists w. split; [reflexivity|]. now apply IH.
Qed.

Lemma like_app x : forall y w, like (x ++ y) w -> exists w1 w2, w = w1 ++ w2 /\ like x w1 /\ like y w2.
Proof.
  induction x as [|c x IH]; intros y w H; [now exists [], w|]. destruct w as [|d w]; [contradiction|]. cbn [app like] in H. destruct H as [K H].
  apply IH in H as (w1 & w2 & -> & H1 & H2). exists (d :: w1), w2. cbn [like]. auto.
Qed.
Lemma like_no_dot x : ~ In "."%char x -> forall w, like x w -> w = x.
Proof.
  induction x as [|c x IH]; intros N0 [|d w] H; try contradiction; [reflexivity|]. cbn [like] in H. destruct H as [[K|K] H].
  - destruct N0. now left.
  - subst d. f_equal. apply IH; [|exact H]. intros I. apply N0. now right.
Qed.

(** C123: the check of the changelog succeeds exactly for a tag that is [v] and a version, if there
    is a heading that is like the version, up to what stands in the place of its dots. *)
Theorem C123_changelog :
  forall (ref : str) (lines : list str),
    check_changelog ref lines = true <->
    exists v h, ref = lit "refs/tags/v" ++ v /\ In (lit "## " ++ h) lines /\ like v h.
Proof.
  intros ref lines. unfold check_changelog.
  assert (G : forall v, grep (mkp true (lits (lit "## ") ++ as_pattern v) true) lines = true <-> exists h, In (lit "## " ++ h) lines /\ like v h).
  { intros v. unfold grep. rewrite existsb_exists. unfold line_matches. cbn [p_start p_atoms p_end]. split.
    - intros (l & I & H). apply full_spec in H. rewrite app_nil_r in H. apply Matches_lits in H as (h & -> & H). apply as_pattern_spec in H. eauto.
    - intros (h & I & H). eexists. split; [exact I|]. apply full_spec. rewrite app_nil_r. apply (Matches_put (lit "## ")), as_pattern_spec, H. }
  destruct (strip_prefix (lit "refs/tags/v") ref) as [v|] eqn:E.
  - apply strip_prefix_spec in E. rewrite G. split.
    + intros (h & I & H). exists v, h. auto.
    + intros (v' & h & E' & I & H). rewrite E in E'. apply app_inv_head in E'. subst v'. eauto.
  - split; [discriminate|]. intros (v & h & -> & _). assert (K : strip_prefix (lit "refs/tags/v") (lit "refs/tags/v" ++ v) = Some v) by now apply strip_prefix_spec.
    congruence.
Qed.
Print Assumptions C123_changelog.

(** C123: for a release, the only version that a heading can be about is that release. *)
Theorem C123_changelog_release :
  forall (v w : tversion), well_formed v -> well_formed w -> t_pre v = [] -> t_build v = [] ->
    (like (show v) (show w) <-> w = v).
Proof.
  intros v w Wv Ww Pv Bv. split.
  2:{ intros ->. generalize (show v). intros s. induction s; cbn; auto. }
  intros H. apply C120_injective; auto.
  assert (D : forall n, ~ In "."%char (dec n)) by (intros n; apply dec_no, dot_no_digit).
  assert (T : third v = dec (t_patch v)) by (unfold third; rewrite Pv, Bv; cbn [app]; now rewrite app_nil_r).
  rewrite show_eq, T in H. apply like_app in H as (a & r & Ea & Ha & H). apply like_no_dot in Ha; [|apply D]. subst a.
  destruct r as [|x r]; [contradiction|]. destruct H as [_ H]. fold like in H.
  apply like_app in H as (b & r2 & -> & Hb & H). apply like_no_dot in Hb; [|apply D]. subst b.
  destruct r2 as [|y r2]; [contradiction|]. destruct H as [_ H]. fold like in H. apply like_no_dot in H; [|apply D]. subst r2.
  rewrite Ea, show_eq, T. rewrite show_eq in Ea.
  assert (X : forall s, ~ In "."%char s -> forall p q, s <> p ++ "."%char :: q).
  { intros s N0 p q ->. apply N0, in_app_iff. right. now left. }
  destruct (ascii_dec x "."%char) as [->|Nx].
  - apply first_cut in Ea as [_ Ea]; [|apply D|apply D]. destruct (ascii_dec y "."%char) as [->|Ny]; [reflexivity|]. exfalso. symmetry in Ea. revert Ea. apply X.
    intros I. rewrite in_app_iff in I. cbn [In] in I. destruct I as [I|[I|I]]; [exact (D _ I)|congruence|exact (D _ I)].
  - exfalso. destruct (ascii_dec y "."%char) as [->|Ny].
    + change (dec (t_major w) ++ "."%char :: dec (t_minor w) ++ "."%char :: third w = dec (t_major v) ++ (x :: dec (t_minor v)) ++ "."%char :: dec (t_patch v)) in Ea.
      rewrite app_assoc in Ea. apply first_cut in Ea as [_ Ea]; [|apply D|].
      * symmetry in Ea. revert Ea. apply X, D.
      * intros I. rewrite in_app_iff in I. cbn [In] in I. destruct I as [I|[I|I]]; [exact (D _ I)|congruence|exact (D _ I)].
    + symmetry in Ea. revert Ea. apply X. intros I. repeat (rewrite in_app_iff in I; cbn [In] in I).
      destruct I as [I|[I|[I|[I|I]]]]; try congruence; exact (D _ I).
Qed.
Print Assumptions C123_changelog_release.

(** C123: for a prerelease it may be another version. *)
Theorem C123_changelog_refuted :
  exists v w : tversion, well_formed v /\ well_formed w /\ v <> w /\
    check_changelog (lit "refs/tags/v" ++ show v) [lit "# Changelog"; lit "## " ++ show w] = true.
Proof.
  exists (mkt 9 0 0 [lit "rc"; lit "a"] []), (mkt 9 0 0 [lit "rc-a"] []).
  assert (L : forall c, In c (lit "rc-a") -> word_char c).
  { intros c I. cbn in I. destruct I as [<-|[<-|[<-|[<-|[]]]]]; try (right; right; left; cbn; lia). right. right. now right. }
  assert (P : forall s, s <> [] -> (forall c, In c s -> In c (lit "rc-a")) -> pre_word s).
  { intros s N0 Hs. split; [split; [exact N0|]|].
    - rewrite Forall_forall. intros c I. apply L, Hs, I.
    - intros F t E. exfalso. subst s. specialize (Hs "0"%char (or_introl eq_refl)). cbn in Hs. repeat (destruct Hs as [Hs|Hs]; [discriminate Hs|]). exact Hs. }
  split; [|split; [|split; [discriminate|vm_compute; reflexivity]]].
  - split; [cbn; lia|]. split; [|constructor]. constructor; [|constructor; [|constructor]]; (apply P; [discriminate|]); intros c I; cbn in *; tauto.
  - split; [cbn; lia|]. split; [|constructor]. constructor; [|constructor]. apply P; [discriminate|]. intros c I. exact I.
Qed.
Print Assumptions C123_changelog_refuted.

Example C123_example :
  let root := mkm (lit "./Cargo.toml")
    [lit "afl = { version = ""0.18"" }";
     lit "internal = { path = ""internal"", package = ""test-fuzz-internal"", version = ""=8.1.1"" }";
     lit "test-fuzz = { path = ""test-fuzz"", version = ""=8.1.1"" }";
     lit "testing = { path = ""testing"", package = ""test-fuzz-testing"" }";
     lit "serde_combinators = { path = ""serde_combinators"", version = ""0.1.0"" }"] in
  let other p v := mkm p [lit "[package]"; lit "name = ""x"""; version_line v; lit "edition = ""2024"""] in
  map m_lines (update_versions (lit "9.0.0") [root; other (lit "./macro/Cargo.toml") (lit "8.1.1"); other (lit "./serde_combinators/Cargo.toml") (lit "0.1.0")]) =
  [[lit "afl = { version = ""0.18"" }";
    lit "internal = { path = ""internal"", package = ""test-fuzz-internal"", version = ""=9.0.0"" }";
    lit "test-fuzz = { path = ""test-fuzz"", version = ""=9.0.0"" }";
    lit "testing = { path = ""testing"", package = ""test-fuzz-testing"" }";
    lit "serde_combinators = { path = ""serde_combinators"", version = ""0.1.0"" }"];
   m_lines (other (lit "./macro/Cargo.toml") (lit "9.0.0")); m_lines (other (lit "./serde_combinators/Cargo.toml") (lit "0.1.0"))] /\
  check_changelog (lit "refs/tags/v8.1.1") [lit "# Changelog"; lit "## 8.1.1"; lit "## 8.1.0"] = true /\
  check_changelog (lit "refs/tags/v8.1.2") [lit "# Changelog"; lit "## 8.1.1"; lit "## 8.1.0"] = false /\
  check_changelog (lit "refs/heads/v8.1.1") [lit "## 8.1.1"] = false.
Proof. vm_compute. repeat split. Qed.
