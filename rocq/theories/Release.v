(** The scripts with which a release is prepared. *)
From Coq Require Import Ascii String List Bool Arith NArith Lia.
From Verif Require Import Base Decimal Semver SemverText InstallTest Versions.
Import ListNotations.
Local Open Scope N_scope.

(** scripts/update_versions.sh:17-22, on each line of a manifest.  Simplification: the version that
    is given has no character that is special to sed ([/], [&], [\]), which no version has. *)
Definition set_package (new : str) : script :=
  mks [] (lits (lit "version = """) ++ [Many (Some quote)] ++ lits (lit """")) [] (lit "version = """ ++ new ++ lit """").

(** scripts/update_versions.sh:24, 26-28, 30-32: the requirement is the version after [=]. *)
Definition set_requirement (new : str) : script :=
  mks [Many None] ([Edge] ++ lits (lit "version = """) ++ [Many (Some quote)] ++ lits (lit """")) [Many None]
      (lit "version = ""=" ++ new ++ lit """").
(** scripts/update_versions.sh:26, 30: on which lines it is set. *)
Definition by_name : pattern := mkp true (lits (lit "test-fuzz")) false.
Definition by_package : pattern := mkp false ([Edge] ++ lits (lit "package = ""test-fuzz")) false.
Definition guarded (p : pattern) (c : script) (line : str) : str := if line_matches p line then sed c line else line.

(** scripts/update_versions.sh:19-20: the manifests found, without those whose paths match. *)
Record manifest := mkm { m_path : str; m_lines : list str }.
Definition left_alone : pattern := mkp false (lits (lit "serde_combinators/Cargo") ++ [Dot] ++ lits (lit "toml")) false.

(** scripts/update_versions.sh:19-32.  Simplification: no command fails. *)
Definition update_manifest (new : str) (m : manifest) : manifest :=
  let l1 := if line_matches left_alone (m_path m) then m_lines m else map (sed (set_package new)) (m_lines m) in
  mkm (m_path m)
    (if str_eqb (m_path m) (lit "./Cargo.toml")
     then map (guarded by_package (set_requirement new)) (map (guarded by_name (set_requirement new)) l1)
     else l1).
Definition update_versions (new : str) (ms : list manifest) : list manifest := map (update_manifest new) ms.

(** scripts/check_CHANGELOG.sh:13-22: the version is used as an expression, in which a dot stands
    for any character.  Simplification: it has no character but the dot that is special to grep. *)
Definition as_pattern (version : str) : list atom := map (fun c => if Ascii.eqb c "."%char then Dot else One c) version.
Definition check_changelog (ref : str) (lines : list str) : bool :=
  match strip_prefix (lit "refs/tags/v") ref with
  | Some version => grep (mkp true (lits (lit "## ") ++ as_pattern version) true) lines
  | None => false
  end.

(** * Specification *)

(** A package's version, as the manifests have it. *)
Definition version_line (text : str) : str := lit "version = """ ++ text ++ lit """".
(** A dependency of the workspace, as Cargo.toml:67-74 has them; [package] if it is renamed. *)
Definition entry_line (key path : str) (package : option str) (text : str) : str :=
  key ++ lit " = { path = """ ++ path ++ lit """, " ++
  match package with Some p => lit "package = """ ++ p ++ lit """, " | None => [] end ++
  lit "version = """ ++ text ++ lit """ }".

(** semver's reading of a requirement that is [=] and a version (external). *)
Definition read_exact (text : str) : option (list rcomp) :=
  match strip_prefix (lit "=") text with
  | Some s => option_map (fun v => [mkr RExact (t_major v) (Some (t_minor v)) (Some (t_patch v)) (t_pre v)]) (parse s)
  | None => None
  end.

(** Texts that are the same up to characters in the place of a dot of the first. *)
Fixpoint like (v w : str) : Prop :=
  match v, w with
  | [], [] => True
  | c :: v', d :: w' => (c = "."%char \/ c = d) /\ like v' w'
  | _, _ => False
  end.

(** * Proofs *)

Lemma last_after x : last_of x = after x None.
Proof. reflexivity. Qed.

Lemma set_package_line new old : ~ In quote old -> sed (set_package new) (version_line old) = version_line new.
Proof.
  intros Q. destruct (sed_cut (set_package new) (version_line old)) as (x & y & z & E & H1 & H2 & H3 & ->).
  - exists [], (version_line old), []. split; [now rewrite app_nil_r|]. cbn [s_first s_middle s_second set_package].
    split; [reflexivity|]. split; [|reflexivity]. unfold version_line. apply Matches_put, Matches_put_many; [now apply only|]. now apply Matches_last.
  - cbn [s_first s_middle s_second s_text set_package] in *. cbn in H1, H3. subst x z. now rewrite app_nil_r.
Qed.

Lemma set_package_other new line : (forall old, ~ In quote old -> line <> version_line old) -> sed (set_package new) line = line.
Proof.
  intros H. apply sed_no_cut. intros x y z E H1 H2 H3. cbn [s_first s_middle s_second set_package] in *. cbn in H1, H3. subst x z.
  rewrite app_nil_r in E. change (line = y) in E. subst y. apply Matches_lits in H2 as (r & -> & H2). apply Matches_many in H2 as (a & r2 & -> & Fa & H2).
  apply Matches_last_inv in H2. subst r2. apply (H a); [now apply Fa|reflexivity].
Qed.

Definition wanted : str := lit "version = """.

Lemma no_wanted_here (o b b0 : str) : ~ In " "%char o -> o ++ quote :: b <> wanted ++ b0.
Proof.
  intros So E. do 7 (destruct o as [|? o]; [discriminate E|]; cbn [app] in E; injection E as -> E).
  destruct o as [|c o]; [discriminate E|]. injection E as -> _. apply So. cbn [In]. do 7 right. now left.
Qed.
Lemma no_wanted_in (o b : str) : ~ In " "%char o -> ~ occurs wanted b -> ~ occurs wanted (o ++ quote :: b).
Proof.
  intros So Nb. induction o as [|c o IH]; intros (a0 & b0 & E).
  - destruct a0 as [|d a0]; [discriminate E|]. cbn [app] in E. injection E as _ E. apply Nb. now exists a0, b0.
  - destruct a0 as [|d a0]; [exact (no_wanted_here (c :: o) b b0 So E)|]. cbn [app] in E. injection E as _ E. apply IH; [intros I; apply So; now right|].
    now exists a0, b0.
Qed.

(** The last requirement of a line is replaced. *)
Lemma set_requirement_at new a old b :
  edge (last_of a) wanted = true -> ~ In quote old -> ~ In " "%char old -> ~ occurs wanted b ->
  sed (set_requirement new) (a ++ wanted ++ old ++ lit """" ++ b) = a ++ lit "version = ""=" ++ new ++ lit """" ++ b.
Proof.
  intros Ea Qo So Nb. set (line := a ++ wanted ++ old ++ lit """" ++ b).
  assert (C : forall p y, Matches (s_middle (set_requirement new)) p y -> exists old', y = wanted ++ old' ++ lit """" /\ ~ In quote old').
  { intros p y H. cbn [s_middle set_requirement] in H. destruct H as [_ H]. fold Matches in H.
    apply (Matches_lits wanted) in H as (r & -> & H). apply Matches_many in H as (o & r2 & -> & Fo & H). apply Matches_last_inv in H. subst r2.
    exists o. split; [reflexivity|now apply Fo]. }
  destruct (sed_longest (set_requirement new) line a (wanted ++ old ++ lit """") b) as (x & y & z & E & _ & H2 & _ & -> & L).
  - unfold line. now rewrite <- !app_assoc.
  - apply all_rest.
  - split; [exact Ea|]. apply (Matches_put wanted), Matches_put_many; [now apply only|]. now apply Matches_last.
  - apply all_rest.
  - apply C in H2 as (o & -> & Qo'). cbn [s_text set_requirement].
    assert (X : exists t, x = a ++ t /\ wanted ++ old ++ lit """" ++ b = t ++ (wanted ++ o ++ lit """") ++ z).
    { unfold line in E. clear -E L. revert x E L. induction a as [|c a IH]; intros x E L; [now exists x|].
      destruct x as [|c' x]; [cbn in L; lia|]. cbn [app] in E. injection E as <- E. destruct (IH x E) as (t & -> & K); [cbn in L; lia|]. now exists t. }
    destruct X as (t & -> & K). destruct t as [|c0 t].
    + rewrite app_nil_r. cbn [app] in K. rewrite <- !app_assoc in K. apply app_inv_head in K. cbn [lit] in K.
      apply (first_cut quote) in K as [_ ->]; auto. now rewrite <- !app_assoc.
    + exfalso. apply (no_wanted_in old b So Nb). change (lit """" ++ b) with (quote :: b) in K.
      do 10 (cbn [app] in K; injection K as _ K; destruct t as [|? t]; [discriminate K|]).
      cbn [app] in K. injection K as _ K. exists t, (o ++ lit """" ++ z). rewrite K. now rewrite <- !app_assoc.
Qed.
