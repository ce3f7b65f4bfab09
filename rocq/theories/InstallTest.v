(** The tests that install the tools and look at what is said about versions. *)
From Coq Require Import Ascii String List Bool Arith NArith Lia.
From Verif Require Import Base Decimal Semver SemverText.
Import ListNotations.
Local Open Scope N_scope.

(** The parts of the basic regular expressions that the tests use (POSIX; [\<] is GNU's): a
    character, any character, any number of characters (of those other than the given one), the
    beginning of a word. *)
Inductive atom := One (c : ascii) | Dot | Many (but : option ascii) | Edge.

Definition lits (s : str) : list atom := map One s.

(** Which characters [[^c]] and [.] stand for.  Simplification: a line is without LF. *)
Definition allowed (but : option ascii) (c : ascii) : bool :=
  match but with Some b => negb (Ascii.eqb c b) | None => true end.

(** GNU's [\<]: a word character that is not preceded by one. *)
Definition underscore_b (c : ascii) : bool := N_of_ascii c =? 95.
Definition in_word (c : ascii) : bool := digit_b c || letter_b c || underscore_b c.
Definition edge (prev : option ascii) (s : str) : bool :=
  match s with c :: _ => in_word c | [] => false end &&
  match prev with Some c => negb (in_word c) | None => true end.

(** Whether the expression accounts for the whole text, which is preceded by [prev]. *)
Fixpoint full (p : list atom) (prev : option ascii) (s : str) {struct p} : bool :=
  match p with
  | [] => match s with [] => true | _ => false end
  | One c :: p' => match s with d :: s' => Ascii.eqb d c && full p' (Some d) s' | [] => false end
  | Dot :: p' => match s with d :: s' => full p' (Some d) s' | [] => false end
  | Edge :: p' => edge prev s && full p' prev s
  | Many b :: p' =>
      (fix many (prev : option ascii) (s : str) : bool :=
         full p' prev s || match s with d :: s' => allowed b d && many (Some d) s' | [] => false end) prev s
  end.

(** A pattern for grep: whether it begins with [^], and whether it ends with [$]. *)
Record pattern := mkp { p_start : bool; p_atoms : list atom; p_end : bool }.
Definition line_matches (p : pattern) (line : str) : bool :=
  full ((if p_start p then [] else [Many None]) ++ p_atoms p ++ (if p_end p then [] else [Many None])) None line.

(** cargo-test-fuzz/tests/install.rs:196-198: [grep -m 1] succeeds if a line matches. *)
Definition grep (p : pattern) (lines : list str) : bool := existsb (line_matches p) lines.

(** A sed script [s/^\(first\)middle\(second\)$/\1text\2/]. *)
Record script := mks { s_first : list atom; s_middle : list atom; s_second : list atom; s_text : str }.

(** All ways to cut a text in two, the longest first part first. *)
Definition cuts (s : str) : list (str * str) :=
  map (fun i => (firstn i s, skipn i s)) (rev (seq 0 (S (List.length s)))).

(** The last character of a text. *)
Definition last_of (s : str) : option ascii := match rev s with c :: _ => Some c | [] => None end.

(** What follows [x] begins with what the script replaces and ends with its second group.
    Simplification: the second group is without [\<], as all of them are. *)
Definition fits (c : script) (x : str) (m : str * str) : bool :=
  full (s_middle c) (last_of x) (fst m) && full (s_second c) None (snd m).
(** Sed on a line (POSIX): the groups match as much as possible, from left to right. *)
Definition sed (c : script) (line : str) : str :=
  match find (fun k => full (s_first c) None (fst k) && existsb (fits c (fst k)) (cuts (snd k))) (cuts line) with
  | Some (x, r) =>
      match find (fits c x) (cuts r) with
      | Some (_, z) => x ++ s_text c ++ z
      | None => line
      end
  | None => line
  end.

(** The characters that texts here are quoted with. *)
Definition quote : ascii := ascii_of_N 34.
Definition backtick : ascii := ascii_of_N 96.

(** cargo-test-fuzz/tests/install.rs:111, applied to test-fuzz/Cargo.toml. *)
Definition downgrade_package : script :=
  mks (lits (lit "version = """)) ([Many (Some "."%char)] ++ lits (lit ".") ++ [Many (Some "."%char)] ++ lits (lit "."))
      ([Many (Some quote)] ++ lits (lit """")) (lit "0.0.").
(** cargo-test-fuzz/tests/install.rs:115, applied to Cargo.toml. *)
Definition downgrade_dependency : script :=
  mks (lits (lit "test-fuzz = {") ++ [Many None; Edge] ++ lits (lit "version = ""="))
      ([Many (Some "."%char)] ++ lits (lit ".") ++ [Many (Some "."%char)] ++ lits (lit "."))
      ([Many (Some quote)] ++ lits (lit """") ++ [Many None] ++ lits (lit "}")) (lit "0.0.").
(** cargo-test-fuzz/tests/install.rs:151, applied to test-fuzz/Cargo.toml. *)
Definition upgrade_package : script :=
  mks (lits (lit "version = """) ++ [Many (Some "."%char)] ++ lits (lit ".") ++ [Many (Some "."%char)])
      (lits (lit ".") ++ [Many (Some quote)]) (lits (lit """")) (lit ".255").
(** cargo-test-fuzz/tests/install.rs:155, applied to Cargo.toml. *)
Definition upgrade_dependency : script :=
  mks (lits (lit "test-fuzz = {") ++ [Many None; Edge] ++ lits (lit "version = ""=") ++ [Many (Some "."%char)] ++ lits (lit ".") ++ [Many (Some "."%char)])
      (lits (lit ".") ++ [Many (Some quote)]) (lits (lit """") ++ [Many None] ++ lits (lit "}")) (lit ".255").
(** cargo-test-fuzz/tests/install.rs:159, applied to cargo-test-fuzz/Cargo.toml. *)
Definition release_tool : script :=
  mks (lits (lit "version = """) ++ [Many (Some "-"%char)]) (lits (lit "-") ++ [Many (Some quote)]) (lits (lit """")) [].
(** cargo-test-fuzz/tests/install.rs:78, applied to Cargo.toml. *)
Definition require_afl : script :=
  mks (lits (lit "afl = {") ++ [Many None; Edge] ++ lits (lit "version = """)) [Many (Some quote)]
      (lits (lit """") ++ [Many None] ++ lits (lit "}")) (lit "=0.13.3").

(** cargo-test-fuzz/tests/install.rs:50-51, 120-121; the last dot is any character. *)
Definition incompatible_pattern (dependency binary : str) : pattern :=
  mkp true (lits (lit "Error: `") ++ [Many (Some backtick)] ++ lits (lit "` depends on `" ++ dependency ++ lit " ") ++ [Many (Some backtick)]
            ++ lits (lit "`, which is incompatible with `" ++ binary ++ lit " ") ++ [Many (Some backtick)] ++ lits (lit "`") ++ [Dot]) true.
(** cargo-test-fuzz/tests/install.rs:82, 164. *)
Definition newer_pattern (dependency binary : str) : pattern :=
  mkp true (lits (lit "`") ++ [Many (Some backtick)] ++ lits (lit "` depends on `" ++ dependency ++ lit " ") ++ [Many (Some backtick)]
            ++ lits (lit "`, which is newer than `" ++ binary ++ lit " ") ++ [Many (Some backtick)] ++ lits (lit "`") ++ [Dot]) false.
(** cargo-test-fuzz/tests/install.rs:83, 165. *)
Definition upgrade_pattern (binary : str) : pattern :=
  mkp false (lits (lit "Consider upgrading with `cargo install " ++ binary ++ lit " --force --version ") ++ [Many (Some backtick)] ++ lits (lit "`") ++ [Dot]) true.
(** cargo-test-fuzz/tests/install.rs:26-27. *)
Definition uninstalled_pattern : pattern :=
  mkp false ([Edge] ++ lits (lit "Could not determine `cargo-afl` version") ++ [Dot] ++ lits (lit " Is it installed? Try `cargo install cargo-afl`") ++ [Dot]) true.

(** What the check needs to know of an executable (cargo-test-fuzz/src/lib.rs:237-242). *)
Record tested := mke { e_name : str; e_test_fuzz : option tversion; e_afl : option tversion }.

(** cargo-test-fuzz/src/lib.rs:682-703 [check_test_fuzz_and_afl_versions]: what is printed, and the
    error if there is one. *)
Fixpoint check_all (tool afl : tversion) (xs : list tested) : outcome (list str * option str) :=
  match xs with
  | [] => Ret ([], None)
  | x :: xs' =>
      bind (check_text (e_name x) (lit "test-fuzz") (e_test_fuzz x) (lit "cargo-test-fuzz") tool) (fun r1 =>
      match snd r1 with
      | Some e => Ret (fst r1, Some e)
      | None =>
          bind (check_text (e_name x) (lit "afl") (e_afl x) (lit "cargo-afl") afl) (fun r2 =>
          match snd r2 with
          | Some e => Ret (fst r1 ++ fst r2, Some e)
          | None => bind (check_all tool afl xs') (fun r3 => Ret (fst r1 ++ fst r2 ++ fst r3, snd r3))
          end)
      end)
  end.

(** cargo-test-fuzz/tests/install.rs:183-192: the lines that the tool and cargo write to stderr;
    [other] are those of the build.  An error of [main] is shown after [Error: ] (std). *)
Definition stderr_lines (other : list str) (r : list str * option str) : list str :=
  other ++ fst r ++ match snd r with Some e => [lit "Error: " ++ e] | None => [] end.

(** cargo-test-fuzz/tests/install.rs:196-201. *)
Definition test_passes (ps : list pattern) (lines : list str) : bool := forallb (fun p => grep p lines) ps.

(** * Specification *)

(** What an expression matches. *)
Fixpoint Matches (p : list atom) (prev : option ascii) (s : str) : Prop :=
  match p with
  | [] => s = []
  | One c :: p' => exists s', s = c :: s' /\ Matches p' (Some c) s'
  | Dot :: p' => exists c s', s = c :: s' /\ Matches p' (Some c) s'
  | Edge :: p' => edge prev s = true /\ Matches p' prev s
  | Many b :: p' => exists a s', s = a ++ s' /\ (forall c, In c a -> b <> Some c) /\
                                 Matches p' (match rev a with c :: _ => Some c | [] => prev end) s'
  end.

(** * Proofs *)

Lemma allowed_spec b c : allowed b c = true <-> b <> Some c.
Proof.
  destruct b as [b|]; cbn; [|split; [discriminate|reflexivity]]. rewrite negb_true_iff. destruct (Ascii.eqb_spec c b); split; congruence.
Qed.

Lemma rev_last (a : str) c : rev (c :: a) = [] -> False.
Proof. cbn. intros E. destruct (rev a); discriminate. Qed.

Lemma full_spec p : forall prev s, full p prev s = true <-> Matches p prev s.
Proof.
  induction p as [|[c| |b|] p IH]; intros prev s.
  - cbn. destruct s; split; congruence.
  - cbn [full Matches]. destruct s as [|d s].
    + split; [discriminate|]. intros (s' & E & _). discriminate E.
    + rewrite andb_true_iff, IH. destruct (Ascii.eqb_spec d c) as [->|N].
      * split; [intros [_ H]; eauto|]. intros (s' & E & H). injection E as <-. auto.
      * split; [intros [K _]; discriminate K|]. intros (s' & E & _). now injection E as ->.
  - cbn [full Matches]. destruct s as [|d s].
    + split; [discriminate|]. intros (c & s' & E & _). discriminate E.
    + rewrite IH. split; [eauto|]. intros (c & s' & E & H). injection E as <- <-. exact H.
  - cbn [full Matches]. revert prev. induction s as [|d s IHs]; intros prev.
    + rewrite orb_false_r, IH. split.
      * intros H. exists [], []. split; [reflexivity|]. split; [intros c []|exact H].
      * intros (a & s' & E & _ & H). symmetry in E. apply app_eq_nil in E as [-> ->]. exact H.
    + rewrite orb_true_iff, IH, andb_true_iff, allowed_spec, IHs. split.
      * intros [H|[A (a & s' & -> & F & H)]].
        -- exists [], (d :: s). split; [reflexivity|]. split; [intros c []|exact H].
        -- exists (d :: a), s'. split; [reflexivity|]. split; [intros c [<-|I]; auto|].
           cbn [rev]. destruct (rev a) eqn:E; exact H.
      * intros (a & s' & E & F & H). destruct a as [|x a].
        -- left. cbn in E. now subst s'.
        -- right. cbn [app] in E. injection E as -> ->. split; [apply F; now left|]. exists a, s'. split; [reflexivity|].
           split; [intros c I; apply F; now right|]. cbn [rev] in H. destruct (rev a) eqn:E; exact H.
  - cbn [full Matches]. rewrite andb_true_iff, IH. reflexivity.
Qed.

(** The character before what follows [t]. *)
Definition after (t : str) (prev : option ascii) : option ascii := match rev t with c :: _ => Some c | [] => prev end.

Lemma after_cons c t prev : after (c :: t) prev = after t (Some c).
Proof. unfold after. cbn [rev]. destruct (rev t); reflexivity. Qed.

Lemma Matches_lits t p : forall prev s, Matches (lits t ++ p) prev s <-> exists s', s = t ++ s' /\ Matches p (after t prev) s'.
Proof.
  induction t as [|c t IH]; intros prev s.
  - cbn [lits map app]. split; [intros H; now exists s|]. intros (s' & -> & H). exact H.
  - cbn [lits map app Matches]. fold (lits t). split.
    + intros (s' & -> & H). apply IH in H as (s'' & -> & H). exists s''. rewrite after_cons. auto.
    + intros (s' & -> & H). rewrite after_cons in H. exists (t ++ s'). split; [reflexivity|]. apply IH. eauto.
Qed.

Lemma Matches_many b p prev s : Matches (Many b :: p) prev s <->
  exists a s', s = a ++ s' /\ (forall c, b = Some c -> ~ In c a) /\ Matches p (after a prev) s'.
Proof.
  cbn [Matches]. split; intros (a & s' & E & F & H); exists a, s'; (split; [exact E|]); (split; [|exact H]); intros c I; [|intros K].
  - intros J. now apply (F c J).
  - exact (F c K I).
Qed.

(** Texts cut at the first occurrence of a character. *)
Lemma first_cut (c : ascii) a : forall b r r', ~ In c a -> ~ In c b -> a ++ c :: r = b ++ c :: r' -> a = b /\ r = r'.
Proof.
  induction a as [|x a IH]; intros [|y b] r r' Na Nb E; cbn in E.
  - injection E as ->. auto.
  - injection E as -> _. destruct Nb. now left.
  - injection E as -> _. destruct Na. now left.
  - injection E as -> E. apply IH in E as [-> ->]; [auto| |]; intros I; [apply Na|apply Nb]; now right.
Qed.

Lemma cuts_spec s x y : In (x, y) (cuts s) <-> s = x ++ y.
Proof.
  unfold cuts. rewrite in_map_iff. split.
  - intros (i & E & _). injection E as <- <-. symmetry. apply firstn_skipn.
  - intros ->. exists (List.length x). split.
    + rewrite firstn_app, skipn_app, firstn_all, skipn_all, Nat.sub_diag. cbn. now rewrite app_nil_r.
    + rewrite <- in_rev. apply in_seq. rewrite app_length. lia.
Qed.

(** If a line can be cut as the script wants it to, it is edited at such a cut. *)
Lemma sed_cut c line :
  (exists x y z, line = x ++ y ++ z /\ Matches (s_first c) None x /\ Matches (s_middle c) (last_of x) y /\ Matches (s_second c) None z) ->
  exists x y z, line = x ++ y ++ z /\ Matches (s_first c) None x /\ Matches (s_middle c) (last_of x) y /\ Matches (s_second c) None z /\
    sed c line = x ++ s_text c ++ z.
Proof.
  intros (x & y & z & E & H1 & H2 & H3). unfold sed.
  set (f2 := fits c).
  set (f1 := fun k : str * str => full (s_first c) None (fst k) && existsb (f2 (fst k)) (cuts (snd k))).
  assert (G : forall x r, existsb (f2 x) (cuts r) = true -> exists y z, r = y ++ z /\ f2 x (y, z) = true /\ find (f2 x) (cuts r) = Some (y, z)).
  { intros x0 r H. apply existsb_exists in H as ([y' z'] & I & H). destruct (find (f2 x0) (cuts r)) as [[u w]|] eqn:Fd.
    - apply find_some in Fd as [J K]. apply cuts_spec in J. eauto.
    - exfalso. pose proof (find_none _ _ Fd _ I). congruence. }
  assert (F1 : f1 (x, y ++ z) = true).
  { unfold f1. cbn [fst snd]. apply andb_true_iff. split; [now apply full_spec|]. apply existsb_exists. exists (y, z).
    split; [now apply cuts_spec|]. unfold f2, fits. cbn [fst snd]. apply andb_true_iff. split; now apply full_spec. }
  destruct (find f1 (cuts line)) as [[u r]|] eqn:Fd.
  2:{ exfalso. assert (I : In (x, y ++ z) (cuts line)) by now apply cuts_spec. pose proof (find_none _ _ Fd _ I). congruence. }
  apply find_some in Fd as [J K]. apply cuts_spec in J. unfold f1 in K. cbn [fst snd] in K. apply andb_true_iff in K as [K1 K2].
  destruct (G u r K2) as (y' & z' & -> & K3 & Q).
  rewrite Q. unfold f2, fits in K3. cbn [fst snd] in K3. apply andb_true_iff in K3 as [K3 K4].
  exists u, y', z'. rewrite full_spec in K1, K3, K4. auto.
Qed.

(** The longest first part is found. *)
Lemma find_longest (f : str * str -> bool) s x r : find f (cuts s) = Some (x, r) ->
  forall x' r', s = x' ++ r' -> f (x', r') = true -> (List.length x' <= List.length x)%nat.
Proof.
  assert (G : forall n, (n <= S (List.length s))%nat -> find f (map (fun i => (firstn i s, skipn i s)) (rev (seq 0 n))) = Some (x, r) ->
            forall x' r', s = x' ++ r' -> (List.length x' < n)%nat -> f (x', r') = true -> (List.length x' <= List.length x)%nat).
  { induction n as [|n IH]; intros L H x' r' E Lx F; [lia|]. rewrite seq_S, rev_app_distr in H. cbn [plus rev app map find] in H.
    destruct (f (firstn n s, skipn n s)) eqn:Fn.
    - injection H as <- _. rewrite firstn_length. lia.
    - destruct (Nat.eq_dec (List.length x') n) as [<-|N0].
      + exfalso. rewrite E in Fn. rewrite firstn_app, skipn_app, firstn_all, skipn_all, Nat.sub_diag in Fn. cbn [firstn skipn app] in Fn.
        rewrite app_nil_r in Fn. congruence.
      + apply (IH ltac:(lia) H x' r' E); [lia|exact F]. }
  intros H x' r' E F. apply (G (S (List.length s)) ltac:(lia) H x' r' E); [|exact F]. rewrite E, app_length. lia.
Qed.

Lemma sed_longest c line x y z :
  line = x ++ y ++ z -> Matches (s_first c) None x -> Matches (s_middle c) (last_of x) y -> Matches (s_second c) None z ->
  exists x' y' z', line = x' ++ y' ++ z' /\ Matches (s_first c) None x' /\ Matches (s_middle c) (last_of x') y' /\ Matches (s_second c) None z' /\
    sed c line = x' ++ s_text c ++ z' /\ (List.length x <= List.length x')%nat.
Proof.
  intros E H1 H2 H3.
  assert (F1 : full (s_first c) None (fst (x, y ++ z)) && existsb (fits c (fst (x, y ++ z))) (cuts (snd (x, y ++ z))) = true).
  { cbn [fst snd]. apply andb_true_iff. split; [now apply full_spec|]. apply existsb_exists. exists (y, z).
    split; [now apply cuts_spec|]. unfold fits. cbn [fst snd]. apply andb_true_iff. split; now apply full_spec. }
  unfold sed. destruct (find _ (cuts line)) as [[u r]|] eqn:Fd.
  2:{ exfalso. assert (I : In (x, y ++ z) (cuts line)) by now apply cuts_spec. pose proof (find_none _ _ Fd _ I) as K. cbv beta in K. congruence. }
  pose proof (find_longest _ _ _ _ Fd x (y ++ z) E F1) as L.
  apply find_some in Fd as [J K]. apply cuts_spec in J. cbn [fst snd] in K. apply andb_true_iff in K as [K1 K2].
  apply existsb_exists in K2 as ([y1 z1] & I & K2). destruct (find (fits c u) (cuts r)) as [[y2 z2]|] eqn:Fd2.
  2:{ exfalso. pose proof (find_none _ _ Fd2 _ I). congruence. }
  apply find_some in Fd2 as [J2 K3]. apply cuts_spec in J2. unfold fits in K3. cbn [fst snd] in K3. apply andb_true_iff in K3 as [K3 K4].
  subst r. exists u, y2, z2. rewrite full_spec in K1, K3, K4. auto 10.
Qed.

Lemma sed_no_cut c line :
  (forall x y z, line = x ++ y ++ z -> Matches (s_first c) None x -> Matches (s_middle c) (last_of x) y -> Matches (s_second c) None z -> False) ->
  sed c line = line.
Proof.
  intros H. unfold sed. destruct (find _ (cuts line)) as [[x r]|] eqn:Fd; [|reflexivity]. exfalso.
  apply find_some in Fd as [J K]. apply cuts_spec in J. cbn [fst snd] in K. apply andb_true_iff in K as [K1 K2].
  apply existsb_exists in K2 as ([y z] & I & K2). apply cuts_spec in I. unfold fits in K2. cbn [fst snd] in K2. apply andb_true_iff in K2 as [K2 K3].
  subst r. rewrite full_spec in K1, K2, K3. eauto.
Qed.

(** ** The characters of versions *)

Definition version_char (c : ascii) : Prop := word_char c \/ c = "."%char \/ c = "+"%char.

Lemma digits_word a : Forall is_digit a -> Forall word_char a.
Proof. intros F. eapply Forall_impl; [|exact F]. intros c H. now left. Qed.

Lemma dec_digits n : Forall is_digit (dec n).
Proof. now destruct (dec_numeral n) as (_ & F & _). Qed.

Lemma dotted_chars l s : dotted l s -> Forall word l -> Forall version_char s.
Proof.
  induction 1 as [w|w l s D IH]; intros F; inversion F as [|? ? [_ W] F']; subst.
  - eapply Forall_impl; [|exact W]. intros c H. now left.
  - apply Forall_app. split; [eapply Forall_impl; [|exact W]; intros c H; now left|]. constructor; [right; now left|now apply IH].
Qed.

Lemma part_chars c l s : SemverText.part c l s -> Forall word l -> version_char c -> Forall version_char s.
Proof. intros [[_ ->]|(t & D & ->)] F C; [constructor|]. constructor; [exact C|]. exact (dotted_chars _ _ D F). Qed.

(** The text after the second dot. *)
Definition third (v : tversion) : str :=
  dec (t_patch v) ++ (match t_pre v with [] => [] | l => lit "-" ++ join dot l end) ++ (match t_build v with [] => [] | l => lit "+" ++ join dot l end).

Lemma show_eq v : show v = dec (t_major v) ++ "."%char :: dec (t_minor v) ++ "."%char :: third v.
Proof. reflexivity. Qed.

Lemma opt_chars c l : Forall word l -> version_char c -> Forall version_char (match l with [] => [] | _ => c :: join dot l end).
Proof.
  intros F C. destruct l as [|w l]; [constructor|]. constructor; [exact C|]. apply (dotted_chars (w :: l)); [|exact F].
  apply join_dotted. discriminate.
Qed.

Lemma third_chars v : well_formed v -> Forall version_char (third v).
Proof.
  intros (_ & P & B). unfold third. rewrite !Forall_app. split; [|split].
  - eapply Forall_impl; [|exact (digits_word _ (dec_digits _))]. intros c H. now left.
  - pose proof (opt_chars "-"%char (t_pre v)) as O. destruct (t_pre v); [constructor|]. apply O.
    + eapply Forall_impl; [|exact P]. intros w [H _]. exact H.
    + left. right. right. now right.
  - pose proof (opt_chars "+"%char (t_build v) B) as O. destruct (t_build v); [constructor|]. apply O. right. now right.
Qed.

Lemma show_chars v : well_formed v -> Forall version_char (show v).
Proof.
  intros W. rewrite show_eq. assert (D : forall n, Forall version_char (dec n)).
  { intros n. eapply Forall_impl; [|exact (digits_word _ (dec_digits n))]. intros c H. now left. }
  apply Forall_app. split; [apply D|]. constructor; [right; now left|]. apply Forall_app. split; [apply D|]. constructor; [right; now left|].
  now apply third_chars.
Qed.

Lemma absent (P : ascii -> Prop) c s : Forall P s -> ~ P c -> ~ In c s.
Proof. intros F N I. rewrite Forall_forall in F. exact (N (F c I)). Qed.

Lemma not_version_char c : (N_of_ascii c = 34 \/ N_of_ascii c = 96 \/ N_of_ascii c = 10) -> ~ version_char c.
Proof.
  intros H [[K|[K|[K|K]]]|[K|K]]; try (subst c; cbn in H; lia); unfold is_digit in *; lia.
Qed.

Lemma dec_no c n : ~ is_digit c -> ~ In c (dec n).
Proof. intros H. exact (absent _ _ _ (dec_digits n) H). Qed.
Lemma dot_no_digit : ~ is_digit "."%char.
Proof. unfold is_digit. cbn. lia. Qed.
Lemma hyphen_no_digit : ~ is_digit "-"%char.
Proof. unfold is_digit. cbn. lia. Qed.
Lemma show_no_quote v : well_formed v -> ~ In quote (show v).
Proof. intros W. apply (absent _ _ _ (show_chars v W)). apply not_version_char. left. reflexivity. Qed.
Lemma third_no_quote v : well_formed v -> ~ In quote (third v).
Proof. intros W. apply (absent _ _ _ (third_chars v W)). apply not_version_char. left. reflexivity. Qed.
Lemma show_no_backtick v : well_formed v -> ~ In backtick (show v).
Proof. intros W. apply (absent _ _ _ (show_chars v W)). apply not_version_char. right. left. reflexivity. Qed.

(** ** The scripts *)

Ltac open H :=
  repeat match type of H with
  | Matches (lits _ ++ _) _ _ => apply Matches_lits in H; destruct H as (? & -> & H)
  | Matches (lits ?t) _ _ => rewrite <- (app_nil_r (lits t)) in H; apply Matches_lits in H; destruct H as (? & -> & H)
  | Matches ([Many _] ++ _) _ _ => apply Matches_many in H; destruct H as (? & ? & -> & ? & H)
  | Matches (Many _ :: _) _ _ => apply Matches_many in H; destruct H as (? & ? & -> & ? & H)
  | Matches [] _ _ => cbn in H; subst
  end.

Definition package_line (v : tversion) : str := lit "version = """ ++ show v ++ lit """".

Lemma lit_cons c t : lit (String c t) = c :: lit t.
Proof. reflexivity. Qed.

Ltac flat := cbn [lit list_ascii_of_string app]; repeat (rewrite <- app_assoc; cbn [app]).
Ltac flat_in E := cbn [lit list_ascii_of_string app] in E; repeat (rewrite <- app_assoc in E; cbn [app] in E).

(** A literal at the end. *)
Lemma Matches_last t prev s : s = t -> Matches (lits t) prev s.
Proof. intros ->. rewrite <- (app_nil_r (lits t)). apply Matches_lits. exists []. split; [now rewrite app_nil_r|reflexivity]. Qed.
Lemma Matches_last_inv t prev s : Matches (lits t) prev s -> s = t.
Proof. rewrite <- (app_nil_r (lits t)). intros H. apply Matches_lits in H as (s' & -> & H). cbn in H. subst s'. apply app_nil_r. Qed.
Lemma Matches_put t p prev s : Matches p (after t prev) s -> Matches (lits t ++ p) prev (t ++ s).
Proof. intros H. apply Matches_lits. eauto. Qed.
Lemma Matches_put_many b p prev a s : (forall c, b = Some c -> ~ In c a) -> Matches p (after a prev) s -> Matches (Many b :: p) prev (a ++ s).
Proof. intros F H. apply Matches_many. eauto. Qed.
Lemma only c (a : str) : ~ In c a -> forall d, Some c = Some d -> ~ In d a.
Proof. intros H d E. injection E as <-. exact H. Qed.

Lemma downgrade_package_line v : well_formed v ->
  sed downgrade_package (package_line v) = package_line (mkt 0 0 (t_patch v) (t_pre v) (t_build v)).
Proof.
  intros W. pose proof (third_no_quote v W) as Q.
  destruct (sed_cut downgrade_package (package_line v)) as (x & y & z & E & H1 & H2 & H3 & ->).
  - exists (lit "version = """), (dec (t_major v) ++ lit "." ++ dec (t_minor v) ++ lit "."), (third v ++ lit """").
    split; [unfold package_line; rewrite show_eq; flat; reflexivity|]. cbn [s_first s_middle s_second downgrade_package].
    split; [now apply Matches_last|]. split.
    + apply Matches_put_many; [apply only, dec_no, dot_no_digit|]. apply Matches_put.
      apply Matches_put_many; [apply only, dec_no, dot_no_digit|]. now apply Matches_last.
    + apply Matches_put_many; [now apply only|]. now apply Matches_last.
  - cbn [s_first s_middle s_second s_text downgrade_package] in *. apply Matches_last_inv in H1. subst x.
    apply Matches_many in H2 as (a & r & -> & Fa & H2). apply Matches_lits in H2 as (r2 & -> & H2).
    apply Matches_many in H2 as (b & r3 & -> & Fb & H2). apply Matches_last_inv in H2. subst r3.
    unfold package_line in E. rewrite show_eq in E. repeat rewrite <- app_assoc in E. apply app_inv_head in E. flat_in E.
    apply first_cut in E as [<- E]; [|apply dec_no, dot_no_digit|now apply Fa].
    apply first_cut in E as [<- E]; [|apply dec_no, dot_no_digit|now apply Fb]. subst z.
    unfold package_line. rewrite show_eq. cbn [t_major t_minor t_patch t_pre t_build]. unfold third. cbn [t_patch t_pre t_build]. flat. reflexivity.
Qed.

Lemma dec_255 : dec 255 = lit "255".
Proof. vm_compute. reflexivity. Qed.

Lemma upgrade_package_line v : well_formed v ->
  sed upgrade_package (package_line v) = package_line (mkt (t_major v) (t_minor v) 255 [] []).
Proof.
  intros W. pose proof (third_no_quote v W) as Q.
  destruct (sed_cut upgrade_package (package_line v)) as (x & y & z & E & H1 & H2 & H3 & ->).
  - exists (lit "version = """ ++ dec (t_major v) ++ lit "." ++ dec (t_minor v)), (lit "." ++ third v), (lit """").
    split; [unfold package_line; rewrite show_eq; flat; reflexivity|]. cbn [s_first s_middle s_second upgrade_package].
    split; [|split].
    + apply Matches_put, Matches_put_many; [apply only, dec_no, dot_no_digit|]. apply Matches_put. rewrite <- (app_nil_r (dec (t_minor v))).
      apply Matches_put_many; [apply only, dec_no, dot_no_digit|reflexivity].
    + apply Matches_put. rewrite <- (app_nil_r (third v)). apply Matches_put_many; [now apply only|reflexivity].
    + now apply Matches_last.
  - cbn [s_first s_middle s_second s_text upgrade_package] in *. apply Matches_last_inv in H3. subst z.
    apply Matches_lits in H1 as (r & -> & H1). apply Matches_many in H1 as (a & r2 & -> & Fa & H1). apply Matches_lits in H1 as (r3 & -> & H1).
    apply Matches_many in H1 as (b & r4 & -> & Fb & H1). cbn in H1. subst r4.
    apply Matches_lits in H2 as (r5 & -> & H2). apply Matches_many in H2 as (c & r6 & -> & Fc & H2). cbn in H2. subst r6.
    unfold package_line in E. rewrite show_eq in E. repeat rewrite <- app_assoc in E. apply app_inv_head in E. flat_in E.
    apply first_cut in E as [<- E]; [|apply dec_no, dot_no_digit|now apply Fa].
    apply first_cut in E as [<- E]; [|apply dec_no, dot_no_digit|now apply Fb].
    unfold package_line. rewrite show_eq. cbn [t_major t_minor t_patch t_pre t_build]. unfold third. cbn [t_patch t_pre t_build]. rewrite dec_255.
    flat. reflexivity.
Qed.

Lemma release_tool_line v : well_formed v -> t_build v = [] ->
  sed release_tool (package_line v) = package_line (mkt (t_major v) (t_minor v) (t_patch v) [] []).
Proof.
  intros W B. assert (H0 : forall n, ~ In "-"%char (dec n)) by (intros n; apply dec_no, hyphen_no_digit).
  assert (Hd : forall a b c : N, ~ In "-"%char (dec a ++ "."%char :: dec b ++ "."%char :: dec c)).
  { intros a b c I. rewrite in_app_iff in I. cbn [In] in I. rewrite in_app_iff in I. cbn [In] in I.
    destruct I as [I|[I|[I|[I|I]]]]; try discriminate I; exact (H0 _ I). }
  destruct v as [a b c p q]. cbn [t_build] in B. subst q. cbn [t_major t_minor t_patch]. destruct p as [|w p].
  - apply sed_no_cut. intros x y z E H1 H2 H3. cbn [s_first s_middle s_second release_tool] in *.
    apply Matches_lits in H2 as (r & -> & H2). assert (I : In "-"%char (package_line (mkt a b c [] []))).
    { rewrite E. rewrite !in_app_iff. right. left. left. left. reflexivity. }
    unfold package_line, show in I. cbn [t_major t_minor t_patch t_pre t_build] in I. flat_in I. cbn [In] in I.
    repeat (rewrite in_app_iff in I; cbn [In] in I).
    repeat (destruct I as [I|I]; try discriminate I; try (now apply H0 in I)); exact I.
  - set (v := mkt a b c (w :: p) []) in *.
    destruct (sed_cut release_tool (package_line v)) as (x & y & z & E & H1 & H2 & H3 & ->).
    + exists (lit "version = """ ++ dec a ++ lit "." ++ dec b ++ lit "." ++ dec c), (lit "-" ++ join dot (w :: p)), (lit """").
      split; [unfold package_line, show, v; cbn [t_major t_minor t_patch t_pre t_build]; flat; reflexivity|]. cbn [s_first s_middle s_second release_tool].
      split; [|split].
      * apply Matches_put. rewrite <- (app_nil_r (dec a ++ _)). apply Matches_put_many; [apply only, Hd|reflexivity].
      * apply Matches_put. rewrite <- (app_nil_r (join dot (w :: p))). apply Matches_put_many; [|reflexivity]. apply only.
        intros I. apply (third_no_quote v W). unfold third, v. cbn [t_patch t_pre t_build]. rewrite !in_app_iff. right. left. right. exact I.
      * now apply Matches_last.
    + cbn [s_first s_middle s_second s_text release_tool] in *. apply Matches_last_inv in H3. subst z.
      apply Matches_lits in H1 as (r & -> & H1). apply Matches_many in H1 as (d & r2 & -> & Fd & H1). cbn in H1. subst r2.
      apply Matches_lits in H2 as (r5 & -> & H2). apply Matches_many in H2 as (e & r6 & -> & Fe & H2). cbn in H2. subst r6.
      assert (E2 : (dec a ++ "."%char :: dec b ++ "."%char :: dec c) ++ "-"%char :: (join dot (w :: p) ++ lit """") = d ++ "-"%char :: (e ++ lit """")).
      { unfold package_line, show, v in E. cbn [t_major t_minor t_patch t_pre t_build] in E. repeat rewrite <- app_assoc in E. apply app_inv_head in E.
        flat. flat_in E. exact E. }
      apply first_cut in E2 as [<- E2]; [|apply Hd|now apply Fd].
      unfold package_line, show. cbn [t_major t_minor t_patch t_pre t_build]. flat. rewrite ?app_nil_r. flat. reflexivity.
Qed.

(** The line of Cargo.toml that the scripts edit (Cargo.toml:69). *)
Definition dependency_line (v : tversion) : str := lit "test-fuzz = { path = ""test-fuzz"", version = ""=" ++ show v ++ lit """ }".

(** How often [c] is followed by [d]. *)
Fixpoint pairs (c d : ascii) (s : str) : nat :=
  match s with
  | x :: s' => (match s' with y :: _ => if Ascii.eqb x c && Ascii.eqb y d then 1 else 0 | [] => 0 end + pairs c d s')%nat
  | [] => 0%nat
  end.

Lemma pairs_here c d r : pairs c d (c :: d :: r) = S (pairs c d (d :: r)).
Proof. cbn [pairs]. now rewrite !Ascii.eqb_refl. Qed.
Lemma pairs_cons c d x s : (pairs c d s <= pairs c d (x :: s))%nat.
Proof. cbn [pairs]. lia. Qed.
Lemma pairs_app c d a r : (1 <= pairs c d (a ++ c :: d :: r))%nat.
Proof. induction a as [|x a IH]; cbn [app]; [rewrite pairs_here; lia|]. pose proof (pairs_cons c d x (a ++ c :: d :: r)). lia. Qed.
Lemma pairs_unique c d s : forall a r r2, a ++ c :: d :: r = s ++ c :: d :: r2 -> pairs c d (s ++ c :: d :: r2) = 1%nat -> a = s.
Proof.
  induction s as [|y s IH]; intros [|x a] r r2 E P; cbn [app] in *.
  - reflexivity.
  - injection E as -> E. rewrite pairs_here, <- E in P. pose proof (pairs_app c d a r). lia.
  - injection E as -> E. assert (K : pairs y d (y :: s ++ y :: d :: r2) = S (pairs y d (s ++ y :: d :: r2))) by (rewrite <- E; apply pairs_here).
    rewrite K in P. pose proof (pairs_app y d s r2). lia.
  - injection E as -> E. f_equal. apply (IH a r r2 E). pose proof (pairs_cons c d y (s ++ c :: d :: r2)). pose proof (pairs_app c d s r2). lia.
Qed.
Lemma pairs_other c d x s : x <> c -> pairs c d (x :: s) = pairs c d s.
Proof. intros N. cbn [pairs]. destruct (Ascii.eqb_spec x c); [contradiction|]. cbn [andb]. now destruct s. Qed.
Lemma pairs_without c d s t : ~ In c s -> pairs c d (s ++ t) = pairs c d t.
Proof.
  induction s as [|x s IH]; intros N; [reflexivity|]. cbn [app]. rewrite pairs_other; [|intros ->; apply N; now left]. apply IH. intros I. apply N. now right.
Qed.

Lemma dependency_cut v a r : well_formed v ->
  lit "test-fuzz = {" ++ a ++ lit "version = ""=" ++ r = dependency_line v ->
  a = lit " path = ""test-fuzz"", " /\ r = show v ++ lit """ }".
Proof.
  intros W E. assert (U : lit "test-fuzz = {" ++ a ++ lit "version = " = lit "test-fuzz = { path = ""test-fuzz"", version = ").
  { apply (pairs_unique quote "="%char) with (r := r) (r2 := show v ++ lit """ }").
    - unfold dependency_line in E. flat. flat_in E. exact E.
    - cbn [lit list_ascii_of_string app]. repeat (rewrite pairs_other by discriminate).
      repeat first [rewrite pairs_here|rewrite pairs_other by discriminate|
        match goal with |- context [pairs quote "=" (?x :: ?y :: ?s)] => change (pairs quote "=" (x :: y :: s)) with (pairs quote "=" (y :: s)) end].
      rewrite pairs_without by now apply show_no_quote. reflexivity. }
  assert (A : a = lit " path = ""test-fuzz"", ").
  { change (lit "test-fuzz = { path = ""test-fuzz"", version = ") with (lit "test-fuzz = {" ++ lit " path = ""test-fuzz"", " ++ lit "version = ") in U.
    apply app_inv_head in U. apply (app_inv_tail (lit "version = ")). exact U. }
  split; [exact A|]. subst a. unfold dependency_line in E.
  apply (app_inv_head (lit "test-fuzz = { path = ""test-fuzz"", version = ""=")). exact E.
Qed.

Lemma downgrade_dependency_line v : well_formed v ->
  sed downgrade_dependency (dependency_line v) = dependency_line (mkt 0 0 (t_patch v) (t_pre v) (t_build v)).
Proof.
  intros W. pose proof (third_no_quote v W) as Q.
  destruct (sed_cut downgrade_dependency (dependency_line v)) as (x & y & z & E & H1 & H2 & H3 & ->).
  - exists (lit "test-fuzz = { path = ""test-fuzz"", version = ""="), (dec (t_major v) ++ lit "." ++ dec (t_minor v) ++ lit "."), (third v ++ lit """ }").
    split; [unfold dependency_line; rewrite show_eq; flat; reflexivity|]. cbn [s_first s_middle s_second downgrade_dependency].
    split; [|split].
    + change (lit "test-fuzz = { path = ""test-fuzz"", version = ""=") with (lit "test-fuzz = {" ++ lit " path = ""test-fuzz"", " ++ lit "version = ""=").
      apply Matches_put. apply Matches_put_many; [discriminate|]. split; [reflexivity|]. now apply Matches_last.
    + apply Matches_put_many; [apply only, dec_no, dot_no_digit|]. apply Matches_put.
      apply Matches_put_many; [apply only, dec_no, dot_no_digit|]. now apply Matches_last.
    + apply Matches_put_many; [now apply only|]. change (lit """ }") with (lit """" ++ lit " " ++ lit "}"). apply Matches_put.
      apply Matches_put_many; [discriminate|]. now apply Matches_last.
  - cbn [s_first s_middle s_second s_text downgrade_dependency] in *.
    apply Matches_lits in H1 as (r & -> & H1). apply Matches_many in H1 as (a0 & r0 & -> & _ & _ & H1). apply Matches_last_inv in H1. subst r0.
    apply Matches_many in H2 as (a & r & -> & Fa & H2). apply Matches_lits in H2 as (r2 & -> & H2).
    apply Matches_many in H2 as (b & r3 & -> & Fb & H2). apply Matches_last_inv in H2. subst r3.
    repeat rewrite <- app_assoc in E. symmetry in E. apply dependency_cut in E as [-> E]; [|exact W]. symmetry in E. rewrite show_eq in E. flat_in E.
    apply first_cut in E as [<- E]; [|apply dec_no, dot_no_digit|now apply Fa].
    apply first_cut in E as [<- E]; [|apply dec_no, dot_no_digit|now apply Fb]. subst z.
    unfold dependency_line. rewrite show_eq. cbn [t_major t_minor t_patch t_pre t_build]. unfold third. cbn [t_patch t_pre t_build]. flat. reflexivity.
Qed.

Lemma upgrade_dependency_line v : well_formed v ->
  sed upgrade_dependency (dependency_line v) = dependency_line (mkt (t_major v) (t_minor v) 255 [] []).
Proof.
  intros W. pose proof (third_no_quote v W) as Q.
  destruct (sed_cut upgrade_dependency (dependency_line v)) as (x & y & z & E & H1 & H2 & H3 & ->).
  - exists (lit "test-fuzz = { path = ""test-fuzz"", version = ""=" ++ dec (t_major v) ++ lit "." ++ dec (t_minor v)), (lit "." ++ third v), (lit """ }").
    split; [unfold dependency_line; rewrite show_eq; flat; reflexivity|]. cbn [s_first s_middle s_second upgrade_dependency].
    split; [|split].
    + change (lit "test-fuzz = { path = ""test-fuzz"", version = ""=" ++ ?s) with (lit "test-fuzz = {" ++ lit " path = ""test-fuzz"", " ++ lit "version = ""=" ++ s).
      apply Matches_put. apply Matches_put_many; [discriminate|]. split; [reflexivity|]. apply Matches_put.
      apply Matches_put_many; [apply only, dec_no, dot_no_digit|]. apply Matches_put. rewrite <- (app_nil_r (dec (t_minor v))).
      apply Matches_put_many; [apply only, dec_no, dot_no_digit|reflexivity].
    + apply Matches_put. rewrite <- (app_nil_r (third v)). apply Matches_put_many; [now apply only|reflexivity].
    + change (lit """ }") with (lit """" ++ lit " " ++ lit "}"). apply Matches_put.
      apply Matches_put_many; [discriminate|]. now apply Matches_last.
  - cbn [s_first s_middle s_second s_text upgrade_dependency] in *.
    apply Matches_lits in H1 as (r & -> & H1). apply Matches_many in H1 as (a0 & r0 & -> & _ & _ & H1).
    apply Matches_lits in H1 as (r1 & -> & H1). apply Matches_many in H1 as (a & r2 & -> & Fa & H1). apply Matches_lits in H1 as (r3 & -> & H1).
    apply Matches_many in H1 as (b & r4 & -> & Fb & H1). cbn in H1. subst r4.
    apply Matches_lits in H2 as (r5 & -> & H2). apply Matches_many in H2 as (c & r6 & -> & Fc & H2). cbn in H2. subst r6.
    apply Matches_lits in H3 as (r7 & -> & H3). apply Matches_many in H3 as (d & r8 & -> & Fd & H3). apply Matches_last_inv in H3. subst r8.
    repeat rewrite <- app_assoc in E. symmetry in E. apply dependency_cut in E as [-> E]; [|exact W]. symmetry in E. rewrite show_eq in E. flat_in E.
    apply first_cut in E as [<- E]; [|apply dec_no, dot_no_digit|now apply Fa].
    apply first_cut in E as [<- E]; [|apply dec_no, dot_no_digit|now apply Fb].
    apply (first_cut quote) in E as [<- E]; [|exact Q|now apply Fc].
    unfold dependency_line. rewrite show_eq. cbn [t_major t_minor t_patch t_pre t_build]. unfold third. cbn [t_patch t_pre t_build]. rewrite dec_255.
    flat. rewrite <- E. reflexivity.
Qed.

(** The line of Cargo.toml with a requirement for afl (Cargo.toml:18). *)
Definition afl_line (r : str) : str := lit "afl = { version = """ ++ r ++ lit """ }".

Lemma require_afl_line r : ~ In quote r -> sed require_afl (afl_line r) = afl_line (lit "=0.13.3").
Proof.
  intros Q.
  destruct (sed_cut require_afl (afl_line r)) as (x & y & z & E & H1 & H2 & H3 & ->).
  - exists (lit "afl = { version = """), r, (lit """ }").
    split; [unfold afl_line; flat; reflexivity|]. cbn [s_first s_middle s_second require_afl].
    split; [|split].
    + change (lit "afl = { version = """) with (lit "afl = {" ++ lit " " ++ lit "version = """).
      apply Matches_put. apply Matches_put_many; [discriminate|]. split; [reflexivity|]. now apply Matches_last.
    + rewrite <- (app_nil_r r). apply Matches_put_many; [now apply only|reflexivity].
    + change (lit """ }") with (lit """" ++ lit " " ++ lit "}"). apply Matches_put.
      apply Matches_put_many; [discriminate|]. now apply Matches_last.
  - cbn [s_first s_middle s_second s_text require_afl] in *.
    apply Matches_lits in H1 as (r0 & -> & H1). apply Matches_many in H1 as (a & r1 & -> & _ & _ & H1). apply Matches_last_inv in H1. subst r1.
    apply Matches_many in H2 as (b & r2 & -> & Fb & H2). cbn in H2. subst r2.
    apply Matches_lits in H3 as (r3 & -> & H3). apply Matches_many in H3 as (d & r4 & -> & Fd & H3). apply Matches_last_inv in H3. subst r4.
    assert (Na : ~ In quote a).
    { pose proof (f_equal (fun s => count_occ ascii_dec s quote) E) as C. cbv beta in C. unfold afl_line in C. rewrite !count_occ_app in C.
      assert (K : forall t, ~ In quote t -> count_occ ascii_dec t quote = 0%nat) by (intros t; apply count_occ_not_In).
      rewrite (K r Q), (K b (Fb quote eq_refl)) in C. repeat match type of C with context [count_occ ascii_dec (lit ?s) quote] => let n := eval vm_compute in (count_occ ascii_dec (lit s) quote) in change (count_occ ascii_dec (lit s) quote) with n in C end. apply (count_occ_not_In ascii_dec). cbn [count_occ] in C. lia. }
    unfold afl_line in E. repeat rewrite <- app_assoc in E.
    change (lit "afl = { version = """ ++ ?s) with (lit "afl = {" ++ lit " version = " ++ quote :: s) in E. apply app_inv_head in E.
    change (lit "version = """ ++ ?s) with (lit "version = " ++ quote :: s) in E. rewrite app_assoc in E.
    apply (first_cut quote) in E as [E1 E].
    + cbn [app] in E. change (lit """" ++ ?s) with (quote :: s) in E. change (lit """ }") with (quote :: lit " }") in E.
      apply (first_cut quote) in E as [<- E]; [|exact Q|now apply Fb]. unfold afl_line.
      assert (a = lit " ") as ->. { apply (app_inv_tail (lit "version = ")). now symmetry. }
      flat. flat_in E. rewrite <- E. reflexivity.
    + cbn. intros I. repeat (destruct I as [I|I]; [discriminate I|]). exact I.
    + rewrite in_app_iff. intros [I|I]; [exact (Na I)|]. cbn in I. repeat (destruct I as [I|I]; [discriminate I|]). exact I.
Qed.

(** ** The messages *)

Definition newer_line (name dependency : str) (d : tversion) (binary : str) (b : tversion) : str :=
  lit "`" ++ name ++ lit "` depends on `" ++ dependency ++ lit " " ++ show d ++ lit "`, which is newer than `"
  ++ binary ++ lit " " ++ show b ++ lit "`. Consider upgrading with `cargo install " ++ binary ++ lit " --force --version '>=" ++ show d ++ lit "'`.".
Definition incompatible_line (name dependency : str) (d : tversion) (binary : str) (b : tversion) : str :=
  lit "`" ++ name ++ lit "` depends on `" ++ dependency ++ lit " " ++ show d ++ lit "`, which is incompatible with `" ++ binary ++ lit " " ++ show b ++ lit "`.".
Definition missing_line (name dependency : str) : str := lit "`" ++ name ++ lit "` does not depend on `" ++ dependency ++ lit "`".

Lemma one_dot prev c : Matches [Dot] prev [c].
Proof. exists c, []. split; reflexivity. Qed.
Lemma all_rest prev s : Matches [Many None] prev s.
Proof. rewrite <- (app_nil_r s). apply Matches_put_many; [discriminate|reflexivity]. Qed.

Lemma newer_seen name dep d bin b : ~ In backtick name -> well_formed d -> well_formed b ->
  line_matches (newer_pattern dep bin) (newer_line name dep d bin b) = true.
Proof.
  intros N Wd Wb. apply full_spec. cbn [p_start p_atoms p_end newer_pattern].
  assert (E : newer_line name dep d bin b = lit "`" ++ name ++ (lit "` depends on `" ++ dep ++ lit " ") ++ show d ++ (lit "`, which is newer than `" ++ bin ++ lit " ")
    ++ show b ++ lit "`" ++ "."%char :: (lit " Consider upgrading with `cargo install " ++ bin ++ lit " --force --version '>=" ++ show d ++ lit "'`.")).
  { unfold newer_line. flat. reflexivity. }
  rewrite <- ?app_assoc, E. clear E.
  change ([] ++ ?x) with x. apply Matches_put, Matches_put_many; [now apply only|]. apply Matches_put, Matches_put_many; [now apply only, show_no_backtick|].
  apply Matches_put, Matches_put_many; [now apply only, show_no_backtick|]. apply Matches_put. eexists _, _. split; [reflexivity|]. apply all_rest.
Qed.

Lemma upgrade_seen name dep d bin b : well_formed d -> line_matches (upgrade_pattern bin) (newer_line name dep d bin b) = true.
Proof.
  intros Wd. apply full_spec. cbn [p_start p_atoms p_end upgrade_pattern]. rewrite app_nil_r.
  assert (E : newer_line name dep d bin b = (lit "`" ++ name ++ lit "` depends on `" ++ dep ++ lit " " ++ show d ++ lit "`, which is newer than `"
    ++ bin ++ lit " " ++ show b ++ lit "`. ") ++ (lit "Consider upgrading with `cargo install " ++ bin ++ lit " --force --version ") ++ (lit "'>=" ++ show d ++ lit "'") ++ lit "`" ++ lit ".").
  { unfold newer_line. flat. reflexivity. }
  rewrite E. clear E. apply Matches_put_many; [discriminate|]. apply Matches_put. apply Matches_put_many.
  - apply only. rewrite !in_app_iff. intros [I|[I|I]].
    + cbn in I. repeat (destruct I as [I|I]; [discriminate I|]). exact I.
    + exact (show_no_backtick d Wd I).
    + cbn in I. repeat (destruct I as [I|I]; [discriminate I|]). exact I.
  - apply Matches_put. apply one_dot.
Qed.

Lemma incompatible_seen name dep d bin b : ~ In backtick name -> well_formed d -> well_formed b ->
  line_matches (incompatible_pattern dep bin) (lit "Error: " ++ incompatible_line name dep d bin b) = true.
Proof.
  intros N Wd Wb. apply full_spec. cbn [p_start p_atoms p_end incompatible_pattern].
  assert (E : lit "Error: " ++ incompatible_line name dep d bin b = lit "Error: `" ++ name ++ (lit "` depends on `" ++ dep ++ lit " ") ++ show d
    ++ (lit "`, which is incompatible with `" ++ bin ++ lit " ") ++ show b ++ lit "`" ++ lit ".").
  { unfold incompatible_line. flat. reflexivity. }
  rewrite <- ?app_assoc, E. clear E.
  change ([] ++ ?x) with x. apply Matches_put, Matches_put_many; [now apply only|]. apply Matches_put, Matches_put_many; [now apply only, show_no_backtick|].
  apply Matches_put, Matches_put_many; [now apply only, show_no_backtick|]. apply Matches_put. apply one_dot.
Qed.

(** What the lines that match begin with. *)
Lemma incompatible_begins dep bin l : line_matches (incompatible_pattern dep bin) l = true ->
  exists n r, l = lit "Error: `" ++ n ++ lit "` depends on `" ++ dep ++ lit " " ++ r /\ ~ In backtick n.
Proof.
  intros H. apply full_spec in H. cbn [p_start p_atoms p_end incompatible_pattern] in H. rewrite <- !app_assoc in H.
  apply Matches_lits in H as (s & -> & H). apply Matches_many in H as (n & s' & -> & F & H). apply Matches_lits in H as (r & -> & _).
  exists n, r. split; [rewrite <- !app_assoc; reflexivity|now apply F].
Qed.
Lemma newer_begins dep bin l : line_matches (newer_pattern dep bin) l = true ->
  exists n r r', l = lit "`" ++ n ++ lit "` depends on `" ++ dep ++ lit " " ++ r ++ lit "`, which is newer than `" ++ r' /\ ~ In backtick n /\ ~ In backtick r.
Proof.
  intros H. apply full_spec in H. cbn [p_start p_atoms p_end newer_pattern] in H. rewrite <- !app_assoc in H.
  apply Matches_lits in H as (s & -> & H). apply Matches_many in H as (n & s' & -> & F & H). apply Matches_lits in H as (r & -> & H).
  apply Matches_many in H as (d & s2 & -> & F2 & H). apply Matches_lits in H as (r' & -> & _).
  exists n, d, (bin ++ lit " " ++ r'). split; [|split; [now apply F|now apply F2]]. rewrite <- !app_assoc. reflexivity.
Qed.
