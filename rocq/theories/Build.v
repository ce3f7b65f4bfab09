(** Instrumentation, the build command, cargo's metadata and the process-wide caches
    of [TestFuzz], and the version of cargo-afl. *)
From Coq Require Import String List Ascii Bool Arith NArith Lia.
From Verif Require Import Base Utf8 Lossy Env Dirs Opts Semver Meta FuzzCmd.
Import ListNotations.
Local Open Scope nat_scope.

(** cargo-test-fuzz/src/lib.rs:210-212 [include_coverage_instrumentation]. *)
Definition include_coverage_instrumentation (o : opts) : bool := is_some (o_coverage o).

(** cargo-test-fuzz/src/lib.rs:214-233 [include_fuzzing_instrumentation]. *)
Definition include_fuzzing_instrumentation (o : opts) : bool :=
  negb (o_list o
        || is_some (o_coverage o)
        || match o_display o with
           | Some (Corpus_ | Crashes | Hangs | ImplGenericArgs_ | GenericArgs_ | Queue) => true
           | _ => false
           end
        || match o_replay o with
           | Some (Corpus_ | Crashes | Hangs | Queue) => true
           | _ => false
           end).

(** cargo-test-fuzz/src/lib.rs:183-191 [TestFuzz::target_directory] without the
    cache; [td] as in Dirs.v. *)
Definition own_target_directory (td : path) (o : opts) : outcome path :=
  target_directory td (include_coverage_instrumentation o) (include_fuzzing_instrumentation o).

(** [--flag value] if the value is given. *)
Definition flag_opt (flag : str) (v : option str) : list str :=
  match v with Some x => [flag; x] | None => [] end.

(** cargo-test-fuzz/src/lib.rs:429-474: the arguments of [cargo]; [td] is the result
    of [opts.target_directory()], [terminal]: stderr is a terminal. *)
Definition build_args (o : opts) (td : path) (terminal : bool) : list str :=
  (if include_fuzzing_instrumentation o then [lit "afl"] else [])
  ++ [lit "test"; lit "--no-run"]
  ++ (if o_no_default_features o then [lit "--no-default-features"] else [])
  ++ flat_map (fun f => [lit "--features"; f]) (o_features o)
  ++ (if o_release o then [lit "--release"] else [])
  ++ (if include_coverage_instrumentation o || include_fuzzing_instrumentation o
      then [lit "--target-dir"; lossy (path_text td)] else [])
  ++ flag_opt (lit "--manifest-path") (o_manifest_path o)
  ++ flag_opt (lit "--package") (o_package o)
  ++ (if o_persistent o then [lit "--features"; lit "test-fuzz/__persistent"] else [])
  ++ flag_opt (lit "--test") (o_test o)
  ++ [if terminal then lit "--message-format=json-diagnostic-rendered-ansi" else lit "--message-format=json"].

(** cargo-test-fuzz/src/lib.rs:306 (the argument of [build]) and 427. *)
Definition silence_stderr (o : opts) : bool :=
  (is_some (o_coverage o) || is_some (o_display o) || is_some (o_replay o)) && negb (o_verbose o).

(** * Coverage environment *)

(** [str::split('/')] (std). *)
Fixpoint split_slash (s : str) : list str :=
  match s with
  | [] => [[]]
  | c :: s' => if ascii_dec c slash then [] :: split_slash s'
               else match split_slash s' with
                    | [] => [[c]]
                    | l :: ls => (c :: l) :: ls
                    end
  end.

(** [Path::components] (std) of an absolute path, without the root. *)
Definition components (s : str) : path :=
  filter (fun c => negb (str_eqb c []) && negb (str_eqb c (lit "."))) (split_slash s).

Fixpoint strip_components (d p : path) : option path :=
  match d, p with
  | [], _ => Some p
  | a :: d', b :: p' => if str_dec a b then strip_components d' p' else None
  | _ :: _, [] => None
  end.

(** cargo-test-fuzz/src/lib.rs:169-181 [replace_target_dir]; [md_td]: the target
    directory of cargo's metadata, [td]: that of [opts.target_directory()].  Joining
    the empty suffix appends a slash (std).  Simplification: redundant slashes and
    [.] components of the suffix are dropped. *)
Definition replace_target_dir (md_td td : path) (value : str) : str :=
  match value with
  | c :: _ =>
      if ascii_dec c slash then
        match strip_components md_td (components value) with
        | Some [] => path_text td ++ [slash]
        | Some rest => path_text (td ++ rest)
        | None => value
        end
      else value
  | [] => value
  end.

(** [str::split_once('=')] (std). *)
Fixpoint split_once (c : ascii) (s : str) : option (str * str) :=
  match s with
  | [] => None
  | a :: s' => if ascii_dec a c then Some ([], s')
               else match split_once c s' with
                    | Some (k, v) => Some (a :: k, v)
                    | None => None
                    end
  end.

Definition quote : ascii := "'"%char.

Fixpoint trim_start (s : str) : str :=
  match s with
  | c :: s' => if ascii_dec c quote then trim_start s' else s
  | [] => []
  end.

(** [str::trim_matches(|c| c == '\'')] (std). *)
Definition trim_quotes (s : str) : str := rev (trim_start (rev (trim_start s))).

(** cargo-test-fuzz/src/lib.rs:161-166, one line. *)
Definition env_of_line (md_td td : path) (l : str) : outcome (str * str) :=
  match split_once "="%char l with
  | None => Panic
  | Some (k, v) => Ret (k, replace_target_dir md_td td (trim_quotes v))
  end.

(** cargo-test-fuzz/src/lib.rs:144-167 [llvm_envs] without the cache; [out] is what
    [cargo llvm-cov show-env] prints ([None]: it cannot be run, which is a panic). *)
Definition own_llvm_envs (md_td td : path) (out : option bytes) (o : opts) : outcome (list (str * str)) :=
  if negb (is_some (o_coverage o)) then Ret []
  else match out with
       | None => Panic
       | Some b => if valid_utf8 b then mapM (env_of_line md_td td) (lines b) else Panic
       end.

(** * Metadata and the caches *)

(** Cargo's metadata together with its target directory. *)
Record mdata := { mt_dir : path; mt_md : metadata }.

(** What cargo answers: [q_md no_default_features features manifest]: the metadata
    ([None]: the command fails, a panic); [q_td]: the target directory reported
    without a manifest path given on the command line; [q_here]: it does report one
    (otherwise the command fails, a panic).  Simplification: it then does so during the
    whole run; [q_env]: see above. *)
Record cargo := {
  q_md : bool -> list str -> option str -> option mdata;
  q_td : path;
  q_here : bool;
  q_env : option bytes;
}.

(** internal/src/dirs.rs:110-124, as called from cargo-test-fuzz/src/lib.rs:183-191: the answer is
    unwrapped. *)
Definition asked_target_directory (q : cargo) (o : opts) : outcome path :=
  if q_here q then own_target_directory (q_td q) o else Panic.

(** cargo-test-fuzz/src/lib.rs:193-208 [metadata] without the cache. *)
Definition own_metadata (q : cargo) (o : opts) : outcome mdata :=
  match q_md q (o_no_default_features o) (o_features o ++ [lit "test-fuzz/__persistent"]) (o_manifest_path o) with
  | Some m => Ret m
  | None => Panic
  end.

(** cargo-test-fuzz/src/lib.rs:122-124: the caches, which last as long as the process. *)
Record caches := { c_llvm : option (list (str * str)); c_td : option path; c_md : option mdata }.
Definition no_caches : caches := {| c_llvm := None; c_td := None; c_md := None |}.

(** [OnceLock::get_or_init] (std): the value is computed only if there is none. *)
Definition get_or_init {A} (c : option A) (f : outcome A) : outcome A :=
  match c with Some a => Ret a | None => f end.

(** cargo-test-fuzz/src/lib.rs:426, 442, 475: what one run asks for, in this order:
    metadata, target directory, environment.  The results and the caches afterwards.
    A panic ends the process, so the caches do not matter then. *)
Definition prepare (q : cargo) (c : caches) (o : opts) : outcome (caches * (mdata * path * list (str * str))) :=
  bind (get_or_init (c_md c) (own_metadata q o)) (fun md =>
  bind (get_or_init (c_td c) (asked_target_directory q o)) (fun td =>
  bind (get_or_init (c_llvm c) (own_llvm_envs (mt_dir md) td (q_env q) o)) (fun env =>
  Ret ({| c_llvm := Some env; c_td := Some td; c_md := Some md |}, (md, td, env))))).

(** Several runs in one process. *)
Fixpoint prepare_all (q : cargo) (c : caches) (os : list opts) : outcome (list (mdata * path * list (str * str))) :=
  match os with
  | [] => Ret []
  | o :: os' =>
      bind (prepare q c o) (fun r =>
      bind (prepare_all q (fst r) os') (fun l => Ret (snd r :: l)))
  end.

(** * The version of cargo-afl *)

(** [u8::is_ascii_whitespace] (core). *)
Definition is_ascii_ws (c : ascii) : bool :=
  existsb (fun n => (N_of_ascii c =? n)%N) [32; 9; 10; 12; 13]%N.

Fixpoint skip_ws (s : str) : str :=
  match s with
  | c :: s' => if is_ascii_ws c then skip_ws s' else s
  | [] => []
  end.

Fixpoint take_word (s : str) : str :=
  match s with
  | c :: s' => if is_ascii_ws c then [] else c :: take_word s'
  | [] => []
  end.

(** [str::split_ascii_whitespace().next()] (std). *)
Definition first_word (s : str) : option str :=
  match take_word (skip_ws s) with [] => None | w => Some w end.

(** cargo-test-fuzz/src/lib.rs:712-730 [cargo_afl_version]: [out] is the stdout of
    [cargo afl --version] ([None]: it cannot be run); [parse] is semver's
    [Version::parse] (external).  Simplification: what the parser says is left out. *)
Definition no_afl_version : str := lit "Could not determine `cargo-afl` version. Is it installed? Try `cargo install cargo-afl`.".
Definition cargo_afl_version (parse : str -> option version) (out : option bytes) : outcome version :=
  match out with
  | None => Err (lit "Could not get output")
  | Some b =>
      match strip_prefix (lit "cargo-afl ") (lossy b) with
      | None => Err no_afl_version
      | Some s => match first_word s with
                  | None => Err no_afl_version
                  | Some w => match parse w with Some v => Ret v | None => Err (lit "parse") end
                  end
      end
  end.

(** cargo-test-fuzz/src/lib.rs:705-710 [cached_cargo_afl_version]: an error is a panic. *)
Definition cached_cargo_afl_version (parse : str -> option version) (out : option bytes) : outcome version :=
  match cargo_afl_version parse out with Ret v => Ret v | _ => Panic end.

(** * Lemmas *)

Lemma never_both o : include_coverage_instrumentation o && include_fuzzing_instrumentation o = false.
Proof.
  unfold include_coverage_instrumentation, include_fuzzing_instrumentation.
  destruct (is_some (o_coverage o)); [|reflexivity]. rewrite orb_true_r. reflexivity.
Qed.

Lemma own_target_directory_eq td o :
  own_target_directory td o =
  Ret (td ++ (if is_some (o_coverage o) then [lit "coverage"] else [])
          ++ (if include_fuzzing_instrumentation o then [lit "afl"] else [])).
Proof.
  unfold own_target_directory, target_directory. rewrite never_both. unfold include_coverage_instrumentation, pjoin.
  destruct (is_some (o_coverage o)), (include_fuzzing_instrumentation o); cbn [app]; now rewrite ?app_nil_r, <- ?app_assoc.
Qed.

Lemma trim_start_spec s : exists n, s = repeat quote n ++ trim_start s /\ forall t, trim_start s <> quote :: t.
Proof.
  induction s as [|c s (n & E & N)]; [exists 0; split; [reflexivity|discriminate]|]. cbn [trim_start].
  destruct (ascii_dec c quote) as [->|K]; [exists (S n); split; [cbn [repeat app]; congruence|exact N]|].
  exists 0. split; [reflexivity|]. congruence.
Qed.

Lemma trim_start_repeat n s : (forall t, s <> quote :: t) -> trim_start (repeat quote n ++ s) = s.
Proof.
  intros H. induction n as [|n IH]; cbn [repeat app trim_start].
  - destruct s as [|c s]; [reflexivity|]. cbn [trim_start]. destruct (ascii_dec c quote) as [->|]; [|reflexivity].
    exfalso. now apply (H s).
  - destruct (ascii_dec quote quote); [exact IH|contradiction].
Qed.

Lemma rev_repeat {A} (a : A) n : rev (repeat a n) = repeat a n.
Proof.
  induction n as [|n IH]; [reflexivity|]. cbn [repeat rev]. rewrite IH. symmetry. apply repeat_cons.
Qed.

(** Trimming removes exactly the quotes around a text that neither starts nor ends with one. *)
Lemma trim_quotes_spec a w b :
  (forall t, w <> quote :: t) -> (forall t, w <> t ++ [quote]) ->
  trim_quotes (repeat quote a ++ w ++ repeat quote b) = w.
Proof.
  intros H1 H2. unfold trim_quotes. destruct w as [|c w].
  - cbn [app]. rewrite <- repeat_app. rewrite <- (app_nil_r (repeat quote (a + b))) at 1.
    rewrite trim_start_repeat by discriminate. reflexivity.
  - rewrite trim_start_repeat.
    + rewrite rev_app_distr, rev_repeat, trim_start_repeat; [apply rev_involutive|].
      intros t E. apply (H2 (rev t)). rewrite <- (rev_involutive (c :: w)), E. reflexivity.
    + intros t E. cbn [app] in E. injection E as -> _. now apply (H1 w).
Qed.

Lemma split_once_spec c k v : ~ In c k -> split_once c (k ++ c :: v) = Some (k, v).
Proof.
  induction k as [|a k IH]; intros N; cbn [app split_once].
  - destruct (ascii_dec c c); [reflexivity|contradiction].
  - destruct (ascii_dec a c) as [->|]; [exfalso; apply N; now left|]. rewrite IH; [reflexivity|].
    intros I. apply N. now right.
Qed.

Lemma split_once_none c s : ~ In c s -> split_once c s = None.
Proof.
  induction s as [|a s IH]; intros N; [reflexivity|]. cbn [split_once].
  destruct (ascii_dec a c) as [->|]; [exfalso; apply N; now left|]. rewrite IH; [reflexivity|].
  intros I. apply N. now right.
Qed.

Lemma strip_components_spec d p r : strip_components d p = Some r <-> p = d ++ r.
Proof.
  revert p. induction d as [|a d IH]; intros p; cbn [strip_components app].
  - split; [intros [= ->]; reflexivity|intros ->; reflexivity].
  - destruct p as [|b p]; [split; discriminate|]. destruct (str_dec a b) as [->|N].
    + rewrite IH. split; [intros ->; reflexivity|intros [= ->]; reflexivity].
    + split; [discriminate|]. intros [= -> _]. contradiction.
Qed.

(** A proper path component. *)
Definition component_ok (c : str) : Prop := c <> [] /\ c <> lit "." /\ ~ In slash c.

Lemma split_slash_no c : ~ In slash c -> split_slash c = [c].
Proof.
  induction c as [|a c IH]; intros N; [reflexivity|]. cbn [split_slash].
  destruct (ascii_dec a slash) as [->|]; [exfalso; apply N; now left|]. rewrite IH; [reflexivity|].
  intros I. apply N. now right.
Qed.

Lemma split_slash_app c s : ~ In slash c -> split_slash (c ++ slash :: s) = c :: split_slash s.
Proof.
  induction c as [|a c IH]; intros N; cbn [app split_slash].
  - destruct (ascii_dec slash slash); [reflexivity|contradiction].
  - destruct (ascii_dec a slash) as [->|]; [exfalso; apply N; now left|]. rewrite IH; [reflexivity|].
    intros I. apply N. now right.
Qed.

Lemma path_text_cons c p : path_text (c :: p) = slash :: c ++ path_text p.
Proof. reflexivity. Qed.

(** The text of a path determines its components. *)
Lemma components_path_text p : Forall component_ok p -> components (path_text p) = p.
Proof.
  unfold components. intros F.
  assert (G : split_slash (path_text p) = [] :: p).
  { induction F as [|c p (N1 & N2 & N3) F IH]; [reflexivity|].
    rewrite path_text_cons. cbn [split_slash]. destruct (ascii_dec slash slash); [|contradiction]. f_equal.
    destruct p as [|c' p].
    - change (path_text []) with (@nil ascii). rewrite app_nil_r. now apply split_slash_no.
    - rewrite path_text_cons in *. rewrite split_slash_app by exact N3.
      cbn [split_slash] in IH. destruct (ascii_dec slash slash); [|contradiction].
      injection IH as IH. now rewrite IH. }
  rewrite G. cbn [filter]. change (str_eqb [] []) with true. cbn [negb andb].
  clear G. induction F as [|c p (N1 & N2 & N3) F IH]; [reflexivity|]. cbn [filter].
  rewrite (proj2 (str_eqb_neq _ _) N1), (proj2 (str_eqb_neq _ _) N2). cbn [negb andb]. now rewrite IH.
Qed.

Lemma prepare_own q o md td env :
  own_metadata q o = Ret md -> q_here q = true -> own_target_directory (q_td q) o = Ret td ->
  own_llvm_envs (mt_dir md) td (q_env q) o = Ret env ->
  prepare q no_caches o = Ret ({| c_llvm := Some env; c_td := Some td; c_md := Some md |}, (md, td, env)).
Proof. intros A H B C. unfold prepare, asked_target_directory. cbn [no_caches c_md c_td c_llvm get_or_init]. rewrite A. cbn [bind]. rewrite H, B. cbn [bind]. rewrite C. reflexivity. Qed.

Lemma prepare_cached q o md td env :
  prepare q {| c_llvm := Some env; c_td := Some td; c_md := Some md |} o
  = Ret ({| c_llvm := Some env; c_td := Some td; c_md := Some md |}, (md, td, env)).
Proof. reflexivity. Qed.

Lemma first_word_spec s w :
  first_word s = Some w <->
  w <> [] /\ (forall c, In c w -> is_ascii_ws c = false) /\
  exists a b, s = a ++ w ++ b /\ (forall c, In c a -> is_ascii_ws c = true) /\
              (b = [] \/ exists c b', b = c :: b' /\ is_ascii_ws c = true).
Proof.
  unfold first_word.
  assert (T : forall s, exists b, s = take_word s ++ b /\ (forall c, In c (take_word s) -> is_ascii_ws c = false) /\
                            (b = [] \/ exists c b', b = c :: b' /\ is_ascii_ws c = true)).
  { clear. induction s as [|c s (b & E & F & B)]; [exists []; cbn; split; [reflexivity|]; split; [intros c []|now left]|].
    cbn [take_word]. destruct (is_ascii_ws c) eqn:W.
    - exists (c :: s). split; [reflexivity|]. split; [intros d []|]. right. now exists c, s.
    - exists b. split; [cbn [app]; congruence|]. split; [|exact B]. intros d [<-|D]; auto. }
  assert (S0 : forall s, exists a, s = a ++ skip_ws s /\ (forall c, In c a -> is_ascii_ws c = true)).
  { clear. induction s as [|c s (a & E & A)]; [exists []; split; [reflexivity|intros c []]|].
    cbn [skip_ws]. destruct (is_ascii_ws c) eqn:W.
    - exists (c :: a). split; [cbn [app]; congruence|]. intros d [<-|D]; auto.
    - exists []. split; [reflexivity|intros d []]. }
  split.
  - intros H. destruct (S0 s) as (a & Ea & A). destruct (T (skip_ws s)) as (b & Eb & F & B).
    destruct (take_word (skip_ws s)) as [|c0 w0] eqn:Q; [discriminate|]. injection H as <-.
    split; [discriminate|]. split; [exact F|]. exists a, b. split; [rewrite Ea at 1; f_equal; exact Eb|]. auto.
  - intros (N & F & a & b & -> & A & B).
    assert (E1 : skip_ws (a ++ w ++ b) = w ++ b).
    { clear - N F A. induction a as [|c a IH]; cbn [app skip_ws].
      - destruct w as [|c w]; [contradiction|]. cbn [app skip_ws]. rewrite (F c); [reflexivity|now left].
      - rewrite (A c) by now left. apply IH. intros d D. apply A. now right. }
    assert (E2 : take_word (w ++ b) = w).
    { clear - F B. induction w as [|c w IH]; cbn [app take_word].
      - destruct B as [->|(c & b' & -> & W)]; [reflexivity|]. cbn [take_word]. now rewrite W.
      - rewrite (F c) by now left. f_equal. apply IH. intros d D. apply F. now right. }
    rewrite E1, E2. destruct w; [contradiction|reflexivity].
Qed.
