(** Auto-generation of corpora before fuzzing. *)
From Coq Require Import String List Ascii Bool Arith NArith Lia.
From stdpp Require Import gmap strings.
From Verif Require Import Base Utf8 Lossy Env Dirs Opts Sha1 Fs Write FuzzCmd Auto CommandText.
Import ListNotations.

(** cargo-test-fuzz/src/lib.rs:54 [AUTO_GENERATED_SUFFIX]. *)
Definition auto_generated_suffix : str := lit "_fuzz__::auto_generate".

(** cargo-test-fuzz/src/lib.rs:1515-1518: the arguments of the process. *)
Definition auto_generate_args (target : str) : list str := [lit "--exact"; target ++ auto_generated_suffix].

(** What running the executable does to the file system, and whether it could be
    run and succeeded (cargo-test-fuzz/src/lib.rs:1515-1526 [auto_generate_corpus]). *)
Definition generator := fs -> exe -> str -> fs * bool.

(** cargo-test-fuzz/src/lib.rs:1491-1504: the two notes, and the error of a target: [true] if the
    process succeeded (so that the directory is missing), [false] otherwise.  Simplification: a
    process that cannot be started (1519-1521) is reported like one that fails (1523). *)
Definition trying (d : path) : str := lit "Could not find `" ++ lossy (path_text d) ++ lit "`. Trying to auto-generate it...".
Definition generated (d : path) : str := lit "Auto-generated `" ++ lossy (path_text d) ++ lit "`.".
Definition gen_error (d : path) (x : exe) (target : str) (succeeded : bool) : str :=
  if succeeded then lit "Could not find or auto-generate `" ++ lossy (path_text d) ++ lit "`. Please ensure `" ++ target ++ lit "` is tested."
  else lit "Command failed: " ++ words_text (x_path x) (auto_generate_args target).

(** cargo-test-fuzz/src/lib.rs:1483-1513 [auto_generate_corpora]: the file system
    afterwards, the targets for which generation was attempted, what is printed, and the
    targets for which an error was noted, with its kind and text. *)
Fixpoint autogen_loop (td : path) (id : option str) (g : generator) (m : fs) (l : list (exe * str))
  : fs * list (exe * str) * list str * list (exe * str * (bool * str)) :=
  match l with
  | [] => (m, [], [], [])
  | (x, t) :: l' =>
      match dir_from_target td id Corpus (x_name x) t with
      | Ret d =>
          if exists_ m d then autogen_loop td id g m l'
          else
            let (m1, ok) := g m x t in
            let '(m2, att, notes, errs) := autogen_loop td id g m1 l' in
            let good := ok && exists_ m1 d in
            (m2, (x, t) :: att, [trying d] ++ (if good then [generated d] else []) ++ notes,
             if good then errs else (x, t, (ok, gen_error d x t ok)) :: errs)
      | _ => (m, [], [], [])  (* [dir_from_target] never fails: lemma [dir_from_target_eq] *)
      end
  end.

Definition auto_generate_corpora (td : path) (id : option str) (g : generator) (m : fs) (l : list (exe * str))
  : fs * list (exe * str) * list str * outcome unit :=
  let '(m', att, notes, errs) := autogen_loop td id g m l in
  (m', att, notes, match errs with [] => Ret tt | _ => Err ([LF] ++ join [LF] (map (fun e => snd (snd e)) errs)) end).

(** macro/src/lib.rs:726-733, 648-671 and runtime/src/lib.rs:183-197: what the
    generated test [auto_generate] does.  [e]: the environment, [d]: the corpus
    directory of the type, [enc]: the serialisation.  The test fails if a recording
    fails (the [unwrap] of runtime/src/lib.rs:186); [args_from_autos] cannot fail
    (C37).  *)
Definition auto_generate {V : Type} (e : env) (enc : list V -> bytes) (d : path) (autos : list (list V)) (m : fs) : fs * bool :=
  if test_fuzz_enabled e then (m, true)
  else match args_from_autos autos with
       | Ret es =>
           (fix go (m : fs) (es : list (list V)) : fs * bool :=
              match es with
              | [] => (m, true)
              | a :: es' => let (m1, ok) := write_data m d (enc a) in if ok then go m1 es' else (m1, false)
              end) m es
       | _ => (m, false)
       end.

(** * Specification *)

(** The corpus directory of a target. *)
Definition corpus_dir (td : path) (id : option str) (xt : exe * str) : path :=
  td ++ [path_segment id (lit "corpus"); path_from_target (x_name (fst xt)) (snd xt)].

(** Running a generator removes nothing and creates no other corpus directory. *)
Definition well_behaved (td : path) (id : option str) (g : generator) : Prop :=
  forall m x t, let m' := fst (g m x t) in
    (forall p, exists_ m p = true -> exists_ m' p = true) /\
    (forall y u, corpus_dir td id (y, u) <> corpus_dir td id (x, t) ->
       exists_ m' (corpus_dir td id (y, u)) = exists_ m (corpus_dir td id (y, u))).

(** * Proofs *)

Lemma corpus_dir_eq td id x t : dir_from_target td id Corpus (x_name x) t = Ret (corpus_dir td id (x, t)).
Proof. apply dir_from_target_eq. Qed.

Lemma autogen_cons td id g m x t l :
  autogen_loop td id g m ((x, t) :: l) =
  let d := corpus_dir td id (x, t) in
  if exists_ m d then autogen_loop td id g m l
  else
    let (m1, ok) := g m x t in
    let '(m2, att, notes, errs) := autogen_loop td id g m1 l in
    let good := ok && exists_ m1 d in
    (m2, (x, t) :: att, [trying d] ++ (if good then [generated d] else []) ++ notes,
     if good then errs else (x, t, (ok, gen_error d x t ok)) :: errs).
Proof. cbn [autogen_loop]. now rewrite corpus_dir_eq. Qed.

(** With well-behaved generators and distinct targets: attempted are exactly the
    targets without corpus, in order; errors are among them; all corpora that
    existed or were generated without error exist at the end; two notes for each target
    for which generation succeeded, one for the others. *)
Lemma autogen_spec td id g : well_behaved td id g -> forall l m m' att notes errs,
  NoDup (map (corpus_dir td id) l) ->
  autogen_loop td id g m l = (m', att, notes, errs) ->
  att = List.filter (fun xt => negb (exists_ m (corpus_dir td id xt))) l /\
  (forall p, exists_ m p = true -> exists_ m' p = true) /\
  (forall xt, ~ In (corpus_dir td id xt) (map (corpus_dir td id) l) ->
      exists_ m' (corpus_dir td id xt) = exists_ m (corpus_dir td id xt)) /\
  (exists lost : list (option (bool * str)),
     Forall2 (fun xt k => match k with
                          | Some (ok, e) => (exists mk, snd (g mk (fst xt) (snd xt)) = ok) /\ e = gen_error (corpus_dir td id xt) (fst xt) (snd xt) ok /\
                                            (ok = true -> exists_ m' (corpus_dir td id xt) = false)
                          | None => exists_ m' (corpus_dir td id xt) = true /\ exists mk, snd (g mk (fst xt) (snd xt)) = true
                          end) att lost /\
     errs = List.concat (map (fun p => match snd p with Some k => [(fst p, k)] | None => [] end) (combine att lost)) /\
     notes = List.concat (map (fun p => trying (corpus_dir td id (fst p)) ::
                                        match snd p with Some _ => [] | None => [generated (corpus_dir td id (fst p))] end) (combine att lost))).
Proof.
  intros W. induction l as [|[x t] l IH]; intros m m' att notes errs ND E.
  - cbn in E. injection E as <- <- <- <-. split; [reflexivity|]. split; [auto|]. split; [reflexivity|].
    exists []. split; [constructor|split; reflexivity].
  - rewrite autogen_cons in E. cbv zeta in E. cbn [map] in ND. apply NoDup_cons in ND as [Ni ND].
    assert (Ni' : ~ In (corpus_dir td id (x, t)) (map (corpus_dir td id) l)).
    { intros K. apply Ni. apply elem_of_list_In. exact K. }
    destruct (exists_ m (corpus_dir td id (x, t))) eqn:X.
    + destruct (IH _ _ _ _ _ ND E) as (A & B & C & D). cbn [List.filter]. rewrite X. cbn [negb].
      split; [exact A|]. split; [exact B|]. split; [|exact D].
      intros xt H. apply C. intros K. apply H. now right.
    + destruct (g m x t) as [m1 ok] eqn:G. destruct (autogen_loop td id g m1 l) as [[[m2 att'] notes'] errs'] eqn:L.
      set (good := ok && exists_ m1 (corpus_dir td id (x, t))) in E.
      assert (m' = m2 /\ att = (x, t) :: att' /\
              notes = [trying (corpus_dir td id (x, t))] ++ (if good then [generated (corpus_dir td id (x, t))] else []) ++ notes' /\
              errs = if good then errs' else (x, t, (ok, gen_error (corpus_dir td id (x, t)) x t ok)) :: errs') as (-> & -> & -> & ->).
      { now inversion E. }
      destruct (IH _ _ _ _ _ ND L) as (A & B & C & lost & D1 & -> & ->).
      destruct (W m x t) as [W1 W2]. rewrite G in W1, W2. cbn [fst] in W1, W2.
      cbn [List.filter]. rewrite X. cbn [negb]. split; [|split; [|split]].
      * f_equal. rewrite A. clear - W2 Ni'. induction l as [|[y u] l IHl]; [reflexivity|].
        cbn [List.filter map] in *. rewrite W2; [|intros K; apply Ni'; now left].
        rewrite IHl by (intros K; apply Ni'; now right). reflexivity.
      * intros p H. apply B, W1, H.
      * intros [y u] H. rewrite C by (intros K; apply H; now right). apply W2. intros K. apply H. left. now symmetry.
      * exists ((if good then None else Some (ok, gen_error (corpus_dir td id (x, t)) x t ok)) :: lost).
        split; [constructor; [|exact D1]|].
        -- unfold good. destruct ok; cbn [andb]; [destruct (exists_ m1 (corpus_dir td id (x, t))) eqn:Y|]; cbn [fst snd].
           ++ split; [now apply B|]. exists m. now rewrite G.
           ++ split; [exists m; now rewrite G|]. split; [reflexivity|]. intros _. rewrite C by exact Ni'. exact Y.
           ++ split; [exists m; now rewrite G|]. split; [reflexivity|]. discriminate.
        -- destruct good; split; reflexivity.
Qed.
