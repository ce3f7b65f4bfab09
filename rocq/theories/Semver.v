(** Versions and the check that an executable's dependencies fit the installed tools. *)
From Coq Require Import Ascii String List Bool NArith Lia.
From Verif Require Import Base.
Import ListNotations.
Local Open Scope N_scope.

(** The semver crate's dot-separated prerelease identifiers: numeric or
    alphanumeric. *)
Inductive ident := Num (n : N) | Alpha (s : str).

(** The semver crate's [Version].  Simplification: no build metadata, which
    takes no part in [VersionReq::matches] and only appears in messages; SemverText.v has
    versions as text, with build metadata. *)
Record version := mkversion {
  v_major : N; v_minor : N; v_patch : N; v_pre : list ident
}.

(** Byte-wise comparison of strings ([str]'s [Ord]). *)
Fixpoint str_cmp (a b : str) : comparison :=
  match a, b with
  | [], [] => Eq
  | [], _ :: _ => Lt
  | _ :: _, [] => Gt
  | x :: a', y :: b' =>
      match N_of_ascii x ?= N_of_ascii y with
      | Eq => str_cmp a' b'
      | c => c
      end
  end.

(** semver's comparison of two identifiers: numeric ones are below alphanumeric ones. *)
Definition ident_cmp (a b : ident) : comparison :=
  match a, b with
  | Num m, Num n => m ?= n
  | Num _, Alpha _ => Lt
  | Alpha _, Num _ => Gt
  | Alpha s, Alpha t => str_cmp s t
  end.

Fixpoint idents_cmp (a b : list ident) : comparison :=
  match a, b with
  | [], [] => Eq
  | [], _ :: _ => Lt
  | _ :: _, [] => Gt
  | x :: a', y :: b' =>
      match ident_cmp x y with
      | Eq => idents_cmp a' b'
      | c => c
      end
  end.

(** semver's [Ord for Prerelease]: no prerelease is above every prerelease. *)
Definition pre_cmp (a b : list ident) : comparison :=
  match a, b with
  | [], [] => Eq
  | [], _ :: _ => Gt
  | _ :: _, [] => Lt
  | _, _ => idents_cmp a b
  end.

Definition geb (c : comparison) : bool := match c with Lt => false | _ => true end.

(** semver's [matches_caret] for a comparator with all of major, minor and patch. *)
Definition matches_caret (c v : version) : bool :=
  if negb (v_major v =? v_major c) then false
  else if 0 <? v_major c then
    if negb (v_minor v =? v_minor c) then v_minor c <? v_minor v
    else if negb (v_patch v =? v_patch c) then v_patch c <? v_patch v
    else geb (pre_cmp (v_pre v) (v_pre c))
  else if 0 <? v_minor c then
    if negb (v_minor v =? v_minor c) then false
    else if negb (v_patch v =? v_patch c) then v_patch c <? v_patch v
    else geb (pre_cmp (v_pre v) (v_pre c))
  else if negb (v_minor v =? v_minor c) || negb (v_patch v =? v_patch c) then false
  else geb (pre_cmp (v_pre v) (v_pre c)).

(** semver's [pre_is_compatible]. *)
Definition pre_is_compatible (c v : version) : bool :=
  (v_major c =? v_major v) && (v_minor c =? v_minor v) && (v_patch c =? v_patch v) &&
  match v_pre c with [] => false | _ => true end.

(** cargo-test-fuzz/src/lib.rs:762-765 [as_version_req] followed by
    [VersionReq::matches]: a version printed and parsed as a requirement is the
    single caret comparator with the same components (proved in PropsSemverText.v). *)
Definition req_matches (c v : version) : bool :=
  matches_caret c v &&
  match v_pre v with [] => true | _ => pre_is_compatible c v end.

(** What the check prints or returns: the upgrade hint (lib.rs:750-754), and the
    two errors (lib.rs:743-748, 757), with the values interpolated into them. *)
Inductive vmsg :=
| Newer (name dependency : str) (dv : version) (binary : str) (bv : version)
| Incompatible (name dependency : str) (dv : version) (binary : str) (bv : version)
| Missing (name dependency : str).

(** cargo-test-fuzz/src/lib.rs:732-760 [check_dependency_version]: what goes to
    stderr, and the error if any. *)
Definition check_dependency_version (name dependency : str) (dv : option version)
           (binary : str) (bv : version) : list vmsg * option vmsg :=
  match dv with
  | Some d =>
      if match v_pre bv with [] => true | _ => false end &&
         negb (req_matches d bv || req_matches bv d)
      then ([], Some (Incompatible name dependency d binary bv))
      else if negb (req_matches d bv) then ([Newer name dependency d binary bv], None)
      else ([], None)
  | None => ([], Some (Missing name dependency))
  end.

(** What of an [Executable] (cargo-test-fuzz/src/lib.rs:237-242) matters here. *)
Record vexe := mkvexe { x_name : str; x_test_fuzz : option version; x_afl : option version }.

(** cargo-test-fuzz/src/lib.rs:682-703 [check_test_fuzz_and_afl_versions]; [ctf]
    is the running tool's own version, [cafl] the cached cargo-afl version. *)
Fixpoint check_versions (ctf cafl : version) (xs : list vexe) : list vmsg * option vmsg :=
  match xs with
  | [] => ([], None)
  | x :: xs' =>
      match check_dependency_version (x_name x) (lit "test-fuzz") (x_test_fuzz x)
                                     (lit "cargo-test-fuzz") ctf with
      | (m1, Some e) => (m1, Some e)
      | (m1, None) =>
          match check_dependency_version (x_name x) (lit "afl") (x_afl x) (lit "cargo-afl") cafl with
          | (m2, Some e) => (m1 ++ m2, Some e)
          | (m2, None) => let (m3, r) := check_versions ctf cafl xs' in (m1 ++ m2 ++ m3, r)
          end
      end
  end.

(** * Specification *)

Definition release (v : version) : Prop := v_pre v = [].

(** Semantic-versioning compatibility: the leftmost non-zero component and
    everything to its left agree. *)
Definition compatible (a b : version) : Prop :=
  (v_major a = v_major b /\ v_major a <> 0) \/
  (v_major a = 0 /\ v_major b = 0 /\ v_minor a = v_minor b /\ v_minor a <> 0) \/
  (v_major a = 0 /\ v_major b = 0 /\ v_minor a = 0 /\ v_minor b = 0 /\ v_patch a = v_patch b).

(** The numeric part of [a] is below that of [b]. *)
Definition core_lt (a b : version) : Prop :=
  v_major a < v_major b \/
  (v_major a = v_major b /\ (v_minor a < v_minor b \/
                             (v_minor a = v_minor b /\ v_patch a < v_patch b))).
Definition core_eq (a b : version) : Prop :=
  v_major a = v_major b /\ v_minor a = v_minor b /\ v_patch a = v_patch b.

(** Lexicographic order on identifier lists, numeric identifiers first. *)
Inductive ascii_lt : str -> str -> Prop :=
| asl_nil : forall y b, ascii_lt [] (y :: b)
| asl_head : forall x y a b, (N_of_ascii x < N_of_ascii y) -> ascii_lt (x :: a) (y :: b)
| asl_tail : forall x a b, ascii_lt a b -> ascii_lt (x :: a) (x :: b).
Inductive ident_lt : ident -> ident -> Prop :=
| il_num : forall m n, m < n -> ident_lt (Num m) (Num n)
| il_num_alpha : forall m s, ident_lt (Num m) (Alpha s)
| il_alpha : forall s t, ascii_lt s t -> ident_lt (Alpha s) (Alpha t).
Inductive idents_lt : list ident -> list ident -> Prop :=
| isl_nil : forall y b, idents_lt [] (y :: b)
| isl_head : forall x y a b, ident_lt x y -> idents_lt (x :: a) (y :: b)
| isl_tail : forall x a b, idents_lt a b -> idents_lt (x :: a) (x :: b).

(** Semantic-versioning precedence. *)
Definition older (a b : version) : Prop :=
  core_lt a b \/
  (core_eq a b /\ v_pre a <> [] /\ (v_pre b = [] \/ idents_lt (v_pre a) (v_pre b))).

(** * Proofs *)

Lemma str_cmp_spec a b :
  match str_cmp a b with Lt => ascii_lt a b | Eq => a = b | Gt => ascii_lt b a end.
Proof.
  revert b; induction a as [|x a IH]; intros [|y b]; simpl; try constructor.
  destruct (N.compare_spec (N_of_ascii x) (N_of_ascii y)) as [E|L|L].
  - assert (x = y) as <-.
    { rewrite <- (ascii_N_embedding x), <- (ascii_N_embedding y). now f_equal. }
    specialize (IH b). destruct (str_cmp a b); [congruence|now constructor|now constructor].
  - now apply asl_head.
  - now apply asl_head.
Qed.

Lemma ident_cmp_spec a b :
  match ident_cmp a b with Lt => ident_lt a b | Eq => a = b | Gt => ident_lt b a end.
Proof.
  destruct a as [m|s], b as [n|t]; simpl; try constructor.
  - destruct (N.compare_spec m n); [congruence|now constructor|now constructor].
  - pose proof (str_cmp_spec s t). destruct (str_cmp s t); [congruence|now constructor|now constructor].
Qed.

Lemma idents_cmp_spec a b :
  match idents_cmp a b with Lt => idents_lt a b | Eq => a = b | Gt => idents_lt b a end.
Proof.
  revert b; induction a as [|x a IH]; intros [|y b]; simpl; try constructor.
  pose proof (ident_cmp_spec x y) as H. destruct (ident_cmp x y).
  - subst y. specialize (IH b). destruct (idents_cmp a b); [congruence|now constructor|now constructor].
  - now apply isl_head.
  - now apply isl_head.
Qed.

Lemma ascii_lt_irrefl a b : ascii_lt a b -> ~ ascii_lt b a /\ a <> b.
Proof.
  induction 1 as [y b|x y a b H|x a b H [IH1 IH2]].
  - split; [intros K; inversion K|discriminate].
  - split; [intros K; inversion K; subst; lia|intros [= -> _]; lia].
  - split; [|congruence]. intros K; inversion K; subst; [lia|contradiction].
Qed.

Lemma ident_lt_irrefl a b : ident_lt a b -> ~ ident_lt b a /\ a <> b.
Proof.
  destruct 1 as [m n H|m s|s t H].
  - split; [intros K; inversion K; lia|intros [= ->]; lia].
  - split; [intros K; inversion K|discriminate].
  - apply ascii_lt_irrefl in H as [H1 H2]. split; [intros K; inversion K; contradiction|congruence].
Qed.

Lemma idents_lt_irrefl a b : idents_lt a b -> ~ idents_lt b a /\ a <> b.
Proof.
  induction 1 as [y b|x y a b H|x a b H [IH1 IH2]].
  - split; [intros K; inversion K|discriminate].
  - apply ident_lt_irrefl in H as [H1 H2].
    split; [intros K; inversion K; subst; contradiction|congruence].
  - split; [|congruence]. intros K; inversion K as [| ? ? ? ? L |]; subst; [|contradiction].
    apply ident_lt_irrefl in L as [_ L]. now apply L.
Qed.

(** [pre_cmp v c] is not [Lt] exactly when [v]'s prerelease does not precede [c]'s. *)
Lemma geb_pre v c :
  geb (pre_cmp v c) = true <-> ~ (v <> [] /\ (c = [] \/ idents_lt v c)).
Proof.
  destruct v as [|x v], c as [|y c]; simpl.
  - split; [intros _ [H _]; now apply H|reflexivity].
  - split; [intros _ [H _]; now apply H|reflexivity].
  - split; [discriminate|]. intros H. exfalso. apply H. split; [discriminate|now left].
  - pose proof (idents_cmp_spec (x :: v) (y :: c)) as H. simpl in H.
    destruct (ident_cmp x y) eqn:E; [destruct (idents_cmp v c) eqn:E2|..]; simpl;
      (split; [try discriminate; intros _ [_ [K|K]]; try discriminate K|]);
      try (intros K; exfalso; apply K; split; [discriminate|now right]);
      try reflexivity; try discriminate.
    + rewrite H in K. apply idents_lt_irrefl in K as [_ K]. now apply K.
    + apply idents_lt_irrefl in H as [H _]. exact (H K).
    + apply idents_lt_irrefl in H as [H _]. exact (H K).
Qed.

Lemma older_dec_core a b :
  core_eq a b -> (geb (pre_cmp (v_pre b) (v_pre a)) = true <-> ~ older b a).
Proof.
  intros (E1 & E2 & E3). rewrite geb_pre. unfold older, core_lt, core_eq.
  split; intros H K; apply H.
  - destruct K as [K|(_ & K1 & K2)]; [lia|auto].
  - right. destruct K as [K1 K2]. repeat split; auto.
Qed.

Ltac cases_N :=
  repeat match goal with
  | |- context [?x =? ?y] => destruct (N.eqb_spec x y); cbn [negb orb andb]
  | |- context [?x <? ?y] => destruct (N.ltb_spec x y); cbn [negb orb andb]
  end.

(** The caret requirement of [c] accepts a release [v] iff they are compatible
    and [v] is not older. *)
Lemma matches_caret_spec c v :
  matches_caret c v = true <-> compatible c v /\ ~ older v c.
Proof.
  assert (K : core_eq c v -> (geb (pre_cmp (v_pre v) (v_pre c)) = true <-> ~ older v c))
    by apply older_dec_core.
  unfold matches_caret. cases_N;
    first
      [ rewrite K by (unfold core_eq; lia); split; [intros G; split; [unfold compatible; lia|exact G]|tauto]
      | clear K; split; [intros _|reflexivity]; split; [unfold compatible; lia|];
        unfold older, core_lt, core_eq; intros [Q|[Q _]]; lia
      | clear K; split; [discriminate|]; intros [A B]; exfalso;
        first [unfold compatible in A; lia | apply B; left; unfold core_lt; lia] ].
Qed.

Lemma compatible_sym a b : compatible a b <-> compatible b a.
Proof. unfold compatible. lia. Qed.

Lemma pre_is_compatible_spec c v :
  pre_is_compatible c v = true <-> core_eq c v /\ v_pre c <> [].
Proof.
  unfold pre_is_compatible, core_eq.
  rewrite !andb_true_iff, !N.eqb_eq. destruct (v_pre c); split; intuition; try discriminate; congruence.
Qed.

Lemma req_matches_spec c v :
  req_matches c v = true <->
  compatible c v /\ ~ older v c /\ (release v \/ (core_eq c v /\ v_pre c <> [])).
Proof.
  unfold req_matches, release. rewrite andb_true_iff, matches_caret_spec.
  destruct (v_pre v) as [|x l] eqn:E.
  - tauto.
  - rewrite pre_is_compatible_spec. intuition discriminate.
Qed.

Lemma older_asym a b : older a b -> ~ older b a.
Proof.
  unfold older, core_lt, core_eq.
  intros [H|(E & H1 & H2)] [K|(F & K1 & K2)]; try lia.
  destruct H2 as [H2|H2]; [congruence|]. destruct K2 as [K2|K2]; [congruence|].
  now apply idents_lt_irrefl in H2 as [H2 _].
Qed.

Lemma release_total a b : release a -> release b -> ~ older a b \/ ~ older b a.
Proof.
  intros Ra Rb. destruct (N.lt_trichotomy (v_major a) (v_major b)) as [H|[H|H]];
  destruct (N.lt_trichotomy (v_minor a) (v_minor b)) as [I|[I|I]];
  destruct (N.lt_trichotomy (v_patch a) (v_patch b)) as [J|[J|J]];
  unfold older, core_lt, core_eq, release in *;
  (left; intros [K|(E & P & _)]; [lia|congruence]) || (right; intros [K|(E & P & _)]; [lia|congruence]).
Qed.

Definition accepted (r : list vmsg * option vmsg) : Prop := snd r = None.

(** Whether a check of [d] against [b] printed the upgrade hint. *)
Definition hinted (r : list vmsg * option vmsg) : Prop := fst r <> [].

Lemma accepted_cases name dep d bin b :
  accepted (check_dependency_version name dep (Some d) bin b) <->
  (release b -> req_matches d b = true \/ req_matches b d = true).
Proof.
  unfold accepted, check_dependency_version, release.
  destruct (v_pre b); [|split; [intros _ H; discriminate H|destruct (req_matches d b); reflexivity]].
  destruct (req_matches d b), (req_matches b d); cbn; split; auto; try discriminate.
  intros H. destruct (H eq_refl); discriminate.
Qed.

Lemma hinted_cases name dep d bin b :
  let r := check_dependency_version name dep (Some d) bin b in
  accepted r -> (hinted r <-> req_matches d b = false).
Proof.
  intros r. unfold r, accepted, hinted, check_dependency_version.
  destruct (_ && _); cbn; [discriminate|]. intros _.
  destruct (req_matches d b); cbn; split; try congruence; discriminate.
Qed.

(** Which executables pass the whole check. *)
Lemma check_versions_ok ctf cafl xs :
  accepted (check_versions ctf cafl xs) <->
  forall x, In x xs ->
    accepted (check_dependency_version (x_name x) (lit "test-fuzz") (x_test_fuzz x) (lit "cargo-test-fuzz") ctf) /\
    accepted (check_dependency_version (x_name x) (lit "afl") (x_afl x) (lit "cargo-afl") cafl).
Proof.
  unfold accepted. induction xs as [|x xs IH]; [simpl; split; [tauto|reflexivity]|].
  cbn [check_versions].
  destruct (check_dependency_version (x_name x) (lit "test-fuzz") _ _ _) as [m1 [e1|]] eqn:E1.
  - cbn [snd]. split; [discriminate|]. intros H. destruct (H x (or_introl eq_refl)) as [H1 _].
    rewrite E1 in H1. discriminate.
  - destruct (check_dependency_version (x_name x) (lit "afl") _ _ _) as [m2 [e2|]] eqn:E2.
    + cbn [snd]. split; [discriminate|]. intros H. destruct (H x (or_introl eq_refl)) as [_ H1].
      rewrite E2 in H1. discriminate.
    + destruct (check_versions ctf cafl xs) as [m3 r]. cbn [snd] in *. rewrite IH. split.
      * intros H y [<-|I]; [rewrite E1, E2; split; reflexivity|now apply H].
      * intros H y I. apply H. now right.
Qed.

(** The error names the first executable that fails, and its first failing check. *)
Lemma check_versions_first ctf cafl xs e :
  snd (check_versions ctf cafl xs) = Some e ->
  exists ys x zs, xs = ys ++ x :: zs /\
    (forall y, In y ys -> accepted (check_versions ctf cafl [y])) /\
    (snd (check_dependency_version (x_name x) (lit "test-fuzz") (x_test_fuzz x) (lit "cargo-test-fuzz") ctf) = Some e \/
     (accepted (check_dependency_version (x_name x) (lit "test-fuzz") (x_test_fuzz x) (lit "cargo-test-fuzz") ctf) /\
      snd (check_dependency_version (x_name x) (lit "afl") (x_afl x) (lit "cargo-afl") cafl) = Some e)).
Proof.
  induction xs as [|x xs IH]; [discriminate|]. cbn [check_versions].
  destruct (check_dependency_version (x_name x) (lit "test-fuzz") _ _ _) as [m1 [e1|]] eqn:E1.
  - cbn [snd]. intros [= ->]. exists [], x, xs. split; [reflexivity|]. split; [intros y []|].
    left. rewrite E1. reflexivity.
  - destruct (check_dependency_version (x_name x) (lit "afl") _ _ _) as [m2 [e2|]] eqn:E2.
    + cbn [snd]. intros [= ->]. exists [], x, xs. split; [reflexivity|]. split; [intros y []|].
      right. unfold accepted. rewrite E1, E2. split; reflexivity.
    + destruct (check_versions ctf cafl xs) as [m3 r]. cbn [snd] in *. intros H.
      destruct (IH H) as (ys & y & zs & -> & A & B). exists (x :: ys), y, zs.
      split; [reflexivity|]. split; [|exact B].
      intros w [<-|I]; [|now apply A]. unfold accepted. cbn [check_versions].
      rewrite E1, E2. reflexivity.
Qed.
