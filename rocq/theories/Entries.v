(** Displaying, replaying and generating coverage for the entries of a directory. *)
From Coq Require Import Ascii String List Bool Arith NArith Lia.
From Verif Require Import Base Utf8 Lossy Dirs Opts Targets.
Import ListNotations.

(** What a harness process did: it closed its output within the time limit and
    exited ([shown] is its status printed with [{:?}]), it was killed at the time
    limit, or starting, reading, waiting or killing failed. *)
Inductive pres := PExit (err : bytes) (success : bool) (shown : str) | PTimeout (err : bytes) | PFail (e : str).

(** What the operating system answers: whether the directory exists, its listing
    ([None] for failures), whether a file can be opened, its contents when read
    directly, and what the harness does when given it. *)
Record eio := {
  e_exists : bool;
  e_list : option (list (option bytes));
  e_open : bytes -> bool;
  e_raw : bytes -> option bytes;
  e_proc : bytes -> pres;
}.

(** Observable effects: a harness started on an entry with the given arguments and
    time limit in seconds, text on stdout, a line on stderr. *)
Inductive ev := Start (n : bytes) (args : list str) (secs : N) | Out (s : str) | Note (s : str).

(** The four local flags of [for_each_entry]. *)
Record fl := mkfl { f_nonempty : bool; f_failure : bool; f_timeout : bool; f_output : bool }.

(** cargo-test-fuzz/src/lib.rs:834-858 [flags_and_dir]: requires cargo test, raw, directory. *)
Definition flags_and_dir (td : path) (id : option str) (o : object) (krate target : str)
  : outcome (bool * bool * path) :=
  let ret rct raw d := bind d (fun p => Ret (rct, raw, p)) in
  match o with
  | Corpus_ | CorpusInstrumented => ret true false (dir_from_target td id Corpus krate target)
  | Crashes | CrashesInstrumented => ret false false (output_subdir td id (lit "crashes") krate target)
  | Hangs | HangsInstrumented => ret false false (output_subdir td id (lit "hangs") krate target)
  | Queue | QueueInstrumented => ret false false (output_subdir td id (lit "queue") krate target)
  | ImplGenericArgs_ => ret true true (dir_from_target td id ImplGenericArgs krate target)
  | GenericArgs_ => ret true true (dir_from_target td id GenericArgs krate target)
  end.

(** cargo-test-fuzz/src/lib.rs:1031-1049 [present_participle]. *)
Definition present_participle (o : opts) : str :=
  let a := if is_some (o_coverage o) then lit "generate coverage for" else [] in
  let b := if is_some (o_display o)
           then a ++ (match a with [] => [] | _ => lit "/" end) ++ lit "display" else a in
  if is_some (o_replay o) then b ++ (match b with [] => [] | _ => lit "/" end) ++ lit "replay" else b.

(** cargo-test-fuzz/src/lib.rs:59 [DEFAULT_TIMEOUT]. *)
Definition default_timeout : N := 1.

(** cargo-test-fuzz/src/lib.rs:897-904. *)
Definition entry_args (target : str) : list str :=
  [lit "--exact"; target ++ entry_suffix; lit "--nocapture"].

(** cargo-test-fuzz/src/lib.rs:921, with [file_name] of 919. *)
Definition is_skipped (n : bytes) : bool :=
  str_eqb (lossy n) (lit "README.txt") || str_eqb (lossy n) (lit ".state").

(** cargo-test-fuzz/src/lib.rs:970-977: the name and the buffer. *)
Definition print_buffer (n buffer : bytes) : list ev :=
  Out (lossy n ++ lit ": ")
  :: match rev buffer with
     | [] => []
     | last :: _ => [Out (lossy buffer)] ++ (if ascii_dec last LF then [] else [Out [LF]])
     end.

Definition nonempty_b (b : bytes) : bool := match b with [] => false | _ => true end.

Section Dir.
(** The directory. *)
Variable dir : path.

(** cargo-test-fuzz/src/lib.rs:911-998, one iteration of the loop. *)
Definition entry_step (o : opts) (target : str) (raw : bool) (s : eio) (f : fl) (n : option bytes)
  : list ev * outcome fl :=
  match n with
  | None => ([], Err (failed_for (lit "read_dir") dir))
  | Some n =>
      if negb (e_open s n) then ([], Err (failed_for (lit "open") (dir ++ [n])))
      else if is_skipped n then ([], Ret f)
      else if raw then
        match e_raw s n with
        | None => ([], Err (failed_for (lit "read_to_end") (dir ++ [n])))
        | Some b => (print_buffer n b,
                     Ret (mkfl true (f_failure f) (f_timeout f) (f_output f || nonempty_b b)))
        end
      else
        let st := Start n (entry_args target)
                    (match o_timeout o with Some t => t | None => default_timeout end) in
        match e_proc s n with
        | PFail e => ([st], Err e)
        | PTimeout b =>
            (st :: print_buffer n b ++ [Out (lit "Timeout" ++ [LF])],
             Ret (mkfl true (f_failure f) true (f_output f || nonempty_b b)))
        | PExit b ok shown =>
            (st :: print_buffer n b ++ (if nonempty_b b then [] else [Out (shown ++ [LF])]),
             Ret (mkfl true (f_failure f || negb ok) (f_timeout f) (f_output f || nonempty_b b)))
        end
  end.

Fixpoint entry_loop (o : opts) (target : str) (raw : bool) (s : eio) (f : fl) (ns : list (option bytes))
  : list ev * outcome fl :=
  match ns with
  | [] => ([], Ret f)
  | n :: ns' =>
      match entry_step o target raw s f n with
      | (es, Ret f') => let (es', r) := entry_loop o target raw s f' ns' in (es ++ es', r)
      | (es, r) => (es, r)
      end
  end.

(** cargo-test-fuzz/src/lib.rs:861-1029 [for_each_entry].  Simplification:
    what is said when the process cannot be started, read, waited for or killed is
    left to [PFail]. *)
Definition for_each_entry (o : opts) (target : str) (requires_cargo_test raw : bool) (s : eio)
  : list ev * outcome unit :=
  if negb (e_exists s) then
    ([], Err (lit "Could not find `" ++ lossy (path_text dir) ++ lit "`" ++
              (if requires_cargo_test then lit ". Did you remember to run `cargo test`?" else [])))
  else match e_list s with
  | None => ([], Err (failed_for (lit "read_dir") dir))
  | Some ns =>
      match entry_loop o target raw s (mkfl false false false false) ns with
      | (es, Err e) => (es, Err e)
      | (es, Panic) => (es, Panic)
      | (es, Ret f) =>
          if negb (negb (negb (f_nonempty f) && (f_failure f || f_timeout f || f_output f)))
          then (es, Panic)
          else if negb (f_nonempty f)
          then (es ++ [Note (lit "Nothing to " ++ present_participle o ++ lit ".")], Ret tt)
          else if negb (f_failure f) && negb (f_timeout f) && negb (f_output f)
          then (es ++ [Note (lit "No output on stderr detected.")], Ret tt)
          else if (f_failure f || f_timeout f) && negb (is_some (o_coverage o)) && negb (is_some (o_replay o))
          then if f_failure f || f_timeout f
               then (es ++ [Note (lit "Encountered a " ++ (if f_failure f then lit "failure" else lit "timeout") ++
                     lit " while not generating coverage and not replaying. A buggy Debug implementation perhaps?")],
                     Ret tt)
               else (es, Panic)
          else (es, Ret tt)
      end
  end.

(** * Specification *)

(** The entries of a listing: everything but README.txt and .state. *)
Definition entries (ns : list bytes) : list bytes :=
  filter (fun n => negb (str_eqb n (lit "README.txt") || str_eqb n (lit ".state"))) ns.

(** What is reported about an entry whose buffer is [b]: its name, the buffer, a
    newline if the buffer does not end with one. *)
Definition shown_buffer (n b : bytes) (r : str) : Prop :=
  (b = [] /\ r = lossy n ++ lit ": ") \/
  (b <> [] /\ ends_lf b /\ r = lossy n ++ lit ": " ++ lossy b) \/
  (b <> [] /\ ~ ends_lf b /\ r = lossy n ++ lit ": " ++ lossy b ++ [LF]).

(** The report of a directly read entry. *)
Definition raw_report (s : eio) (n : bytes) (r : str) : Prop :=
  exists b, e_raw s n = Some b /\ shown_buffer n b r.

(** The report of an entry given to a harness. *)
Definition proc_report (s : eio) (n : bytes) (r : str) : Prop :=
  (exists b, e_proc s n = PTimeout b /\ exists r', shown_buffer n b r' /\ r = r' ++ lit "Timeout" ++ [LF]) \/
  (exists b ok shown, e_proc s n = PExit b ok shown /\
     ((b <> [] /\ shown_buffer n b r) \/ (b = [] /\ r = lossy n ++ lit ": " ++ shown ++ [LF]))).

Definition report (raw : bool) (s : eio) (n : bytes) (r : str) : Prop :=
  if raw then raw_report s n r else proc_report s n r.

(** Text on stdout, processes started, lines on stderr. *)
Definition stdout (es : list ev) : str := concat (map (fun e => match e with Out s => s | _ => [] end) es).
Definition started (es : list ev) : list bytes := flat_map (fun e => match e with Start n _ _ => [n] | _ => [] end) es.
Definition notes (es : list ev) : list str := flat_map (fun e => match e with Note s => [s] | _ => [] end) es.

(** The outcomes of the entries. *)
Definition failed (s : eio) (n : bytes) : Prop := exists b shown, e_proc s n = PExit b false shown.
Definition timed_out (s : eio) (n : bytes) : Prop := exists b, e_proc s n = PTimeout b.
Definition gave_output (raw : bool) (s : eio) (n : bytes) : Prop :=
  if raw then exists b, e_raw s n = Some b /\ b <> []
  else exists b, b <> [] /\ (e_proc s n = PTimeout b \/ exists ok shown, e_proc s n = PExit b ok shown).

(** No operation fails: every listed name can be opened, every entry can be read or
    given to a harness. *)
Definition no_io_error (raw : bool) (s : eio) (ns : list bytes) : Prop :=
  (forall n, In n ns -> e_open s n = true) /\
  (forall n, In n (entries ns) -> if raw then e_raw s n <> None else forall e, e_proc s n <> PFail e).

(** * Proofs *)

Lemma is_skipped_eq n : is_skipped n = str_eqb n (lit "README.txt") || str_eqb n (lit ".state").
Proof.
  unfold is_skipped.
  assert (K : forall t, is_ascii t -> str_eqb (lossy n) t = str_eqb n t).
  { intros t At. destruct (str_eqb n t) eqn:E.
    - apply str_eqb_eq in E. subst t. rewrite (lossy_valid n (ascii_valid n At)). apply str_eqb_refl.
    - destruct (str_eqb (lossy n) t) eqn:E'; [|reflexivity]. apply str_eqb_eq in E'.
      rewrite <- E' in At. apply lossy_ascii in At. rewrite At in E'. subst t. now rewrite str_eqb_refl in E. }
  rewrite !K; [reflexivity| |]; repeat constructor.
Qed.

Lemma rev_ends_lf b last t : rev b = last :: t -> (last = LF <-> ends_lf b).
Proof.
  intros E. assert (E' : b = rev t ++ [last]).
  { rewrite <- (rev_involutive b), E. reflexivity. }
  subst b. split.
  - intros ->. now exists (rev t).
  - intros [u H]. apply app_inj_tail in H as [_ ->]. reflexivity.
Qed.

Lemma print_buffer_spec n b : shown_buffer n b (stdout (print_buffer n b)) /\ started (print_buffer n b) = [] /\ notes (print_buffer n b) = [].
Proof.
  unfold print_buffer, shown_buffer. destruct (rev b) as [|last t] eqn:E.
  - assert (b = []) as -> by (rewrite <- (rev_involutive b), E; reflexivity).
    cbn [stdout map concat started notes flat_map app]. rewrite app_nil_r. auto.
  - assert (N : b <> []) by (intros ->; discriminate E).
    destruct (ascii_dec last LF) as [->|Hn]; (split; [right|split; reflexivity]).
    + left. split; [exact N|]. split; [now apply (rev_ends_lf _ _ _ E)|].
      cbn [stdout map concat app]. now rewrite app_nil_r, <- app_assoc.
    + right. split; [exact N|]. split; [now rewrite <- (rev_ends_lf _ _ _ E)|].
      cbn [stdout map concat app]. now rewrite <- !app_assoc.
Qed.

Lemma stdout_app a b : stdout (a ++ b) = stdout a ++ stdout b.
Proof. unfold stdout. now rewrite map_app, concat_app. Qed.
Lemma started_app a b : started (a ++ b) = started a ++ started b.
Proof. unfold started. apply flat_map_app. Qed.
Lemma notes_app a b : notes (a ++ b) = notes a ++ notes b.
Proof. unfold notes. apply flat_map_app. Qed.

Lemma stdout_start n a t l : stdout (Start n a t :: l) = stdout l.
Proof. reflexivity. Qed.
Lemma started_start n a t l : started (Start n a t :: l) = n :: started l.
Proof. reflexivity. Qed.
Lemma notes_start n a t l : notes (Start n a t :: l) = notes l.
Proof. reflexivity. Qed.
Lemma stdout_out s : stdout [Out s] = s.
Proof. apply app_nil_r. Qed.

Lemma pair_ret {A B : Type} (a a' : A) (b b' : B) : (a, Ret b) = (a', Ret b') -> a' = a /\ b' = b.
Proof. intros E. split; [exact (eq_sym (f_equal fst E))|]. apply (f_equal snd) in E. cbn [snd] in E. congruence. Qed.

(** One iteration on an entry that is not skipped, when it does not fail. *)
Lemma entry_step_ok o target raw s f n es f' :
  is_skipped n = false -> entry_step o target raw s f (Some n) = (es, Ret f') ->
  report raw s n (stdout es) /\ started es = (if raw then [] else [n]) /\ notes es = [] /\
  f_nonempty f' = true /\
  (f_failure f' = true <-> f_failure f = true \/ (raw = false /\ failed s n)) /\
  (f_timeout f' = true <-> f_timeout f = true \/ (raw = false /\ timed_out s n)) /\
  (f_output f' = true <-> f_output f = true \/ gave_output raw s n).
Proof.
  intros Sk. cbn [entry_step]. rewrite Sk. destruct (e_open s n); cbn [negb]; [|discriminate].
  unfold report, gave_output, failed, timed_out. destruct raw.
  - destruct (e_raw s n) as [b|] eqn:R; [|discriminate]. intros E; apply pair_ret in E as [-> ->].
    destruct (print_buffer_spec n b) as (P & -> & ->). cbn [f_nonempty f_failure f_timeout f_output].
    repeat split; auto.
    + exists b. auto.
    + intros [H|[H _]]; [exact H|discriminate].
    + intros [H|[H _]]; [exact H|discriminate].
    + rewrite orb_true_iff. intros [H|H]; [now left|right]. exists b. split; [reflexivity|]. now destruct b.
    + intros [H|(b' & [= ->] & N)]; [rewrite H; reflexivity|]. destruct b'; [contradiction|apply orb_true_r].
  - destruct (e_proc s n) as [b ok shown|b|e] eqn:R; [| |discriminate]; intros E; apply pair_ret in E as [-> ->];
      destruct (print_buffer_spec n b) as (P & St & No); cbn [f_nonempty f_failure f_timeout f_output].
    + rewrite stdout_start, started_start, notes_start, stdout_app, started_app, notes_app, St, No.
      repeat split; auto.
      * right. exists b, ok, shown. split; [exact R|].
        destruct b as [|c b]; cbn [nonempty_b].
        -- right. split; [reflexivity|]. rewrite stdout_out.
           change (print_buffer n []) with [Out (lossy n ++ lit ": ")]. now rewrite stdout_out, <- app_assoc.
        -- left. split; [discriminate|]. rewrite app_nil_r. exact P.
      * destruct (nonempty_b b); reflexivity.
      * destruct (nonempty_b b); reflexivity.
      * rewrite orb_true_iff. intros [H|H]; [now left|right]. split; [reflexivity|].
        destruct ok; [discriminate|]. eauto.
      * intros [H|(_ & b' & sh & H)]; [rewrite H; reflexivity|]. injection H as _ -> _. apply orb_true_r.
      * intros [H|(_ & b' & H)]; [exact H|discriminate].
      * rewrite orb_true_iff. intros [H|H]; [now left|right]. exists b. split; [now destruct b|]. right. eauto.
      * intros [H|(b' & N & [H|(ok' & sh & H)])]; [rewrite H; reflexivity|discriminate|].
        injection H as -> _ _. destruct b'; [contradiction|apply orb_true_r].
    + rewrite stdout_start, started_start, notes_start, stdout_app, started_app, notes_app, St, No, stdout_out.
      repeat split; auto.
      * left. exists b. split; [exact R|]. exists (stdout (print_buffer n b)). auto.
      * intros [H|(_ & b' & sh & H)]; [exact H|discriminate].
      * intros _. right. split; [reflexivity|]. eauto.
      * rewrite orb_true_iff. intros [H|H]; [now left|right]. exists b. split; [now destruct b|]. now left.
      * intros [H|(b' & N & [H|(ok' & sh & H)])]; [rewrite H; reflexivity| |discriminate].
        injection H as ->. destruct b'; [contradiction|apply orb_true_r].
Qed.

(** The operation on a listed name that ends the loop. *)
Definition breaks (raw : bool) (s : eio) (x : option bytes) : Prop :=
  x = None \/
  exists n, x = Some n /\
    (e_open s n = false \/
     (entries [n] = [n] /\ if raw then e_raw s n = None else exists e, e_proc s n = PFail e)).

(** The same, with what is said about it. *)
Inductive broke (raw : bool) (s : eio) : option bytes -> str -> Prop :=
| broke_entry : broke raw s None (failed_for (lit "read_dir") dir)
| broke_open n : e_open s n = false -> broke raw s (Some n) (failed_for (lit "open") (dir ++ [n]))
| broke_read n : e_open s n = true -> raw = true -> entries [n] = [n] -> e_raw s n = None ->
    broke raw s (Some n) (failed_for (lit "read_to_end") (dir ++ [n]))
| broke_process n e : e_open s n = true -> raw = false -> entries [n] = [n] -> e_proc s n = PFail e -> broke raw s (Some n) e.

Lemma broke_breaks raw s x e : broke raw s x e -> breaks raw s x.
Proof. intros [|n O|n _ -> E R|n e' _ -> E R]; [now left|right..]; exists n; eauto 6. Qed.

Lemma entries_cons n ns : entries (n :: ns) = if is_skipped n then entries ns else n :: entries ns.
Proof. rewrite is_skipped_eq. unfold entries. cbn [filter]. destruct (_ || _); reflexivity. Qed.

Lemma entry_step_skipped o target raw s f n :
  is_skipped n = true -> e_open s n = true -> entry_step o target raw s f (Some n) = ([], Ret f).
Proof. intros Sk Op. cbn [entry_step]. now rewrite Op, Sk. Qed.

(** An iteration that fails. *)
Lemma entry_step_err o target raw s f x es r :
  entry_step o target raw s f x = (es, r) -> (forall f', r <> Ret f') ->
  (exists e, r = Err e /\ broke raw s x e) /\ stdout es = [] /\ notes es = [] /\
  (started es = [] \/ raw = false /\ exists n, x = Some n /\ started es = [n]).
Proof.
  destruct x as [n|]; cbn [entry_step].
  2:{ intros E _. inversion E; subst. split; [eexists; split; [reflexivity|constructor]|]. repeat split. now left. }
  destruct (e_open s n) eqn:Op; cbn [negb].
  2:{ intros E _. inversion E; subst. split; [eexists; split; [reflexivity|now constructor]|].
      split; [reflexivity|]. split; [reflexivity|]. now left. }
  destruct (is_skipped n) eqn:Sk.
  { intros E K. apply (f_equal snd) in E. cbn [snd] in E. now destruct (K f). }
  assert (En : entries [n] = [n]) by (rewrite entries_cons, Sk; reflexivity).
  destruct raw.
  - destruct (e_raw s n) as [b|] eqn:R; intros E K.
    + apply (f_equal snd) in E. cbn [snd] in E. subst r. now eapply (False_rect _ (K _ eq_refl)).
    + inversion E; subst. split; [eexists; split; [reflexivity|now constructor]|].
      split; [reflexivity|]. split; [reflexivity|]. now left.
  - destruct (e_proc s n) as [b ok shown|b|e] eqn:R; intros E K.
    + apply (f_equal snd) in E. cbn [snd] in E. subst r. now eapply (False_rect _ (K _ eq_refl)).
    + apply (f_equal snd) in E. cbn [snd] in E. subst r. now eapply (False_rect _ (K _ eq_refl)).
    + inversion E; subst. split; [eexists; split; [reflexivity|now constructor]|].
      split; [reflexivity|]. split; [reflexivity|]. right. eauto.
Qed.

(** The whole loop. *)
Lemma entry_loop_spec o target raw s ns : forall f es r,
  entry_loop o target raw s f ns = (es, r) ->
  exists done rest reports,
    ns = map Some done ++ rest /\
    Forall2 (report raw s) (entries done) reports /\ stdout es = concat reports /\ notes es = [] /\
    match r with
    | Ret f' =>
        rest = [] /\ started es = (if raw then [] else entries done) /\
        (f_nonempty f' = true <-> f_nonempty f = true \/ entries done <> []) /\
        (f_failure f' = true <-> f_failure f = true \/ exists n, In n (entries done) /\ raw = false /\ failed s n) /\
        (f_timeout f' = true <-> f_timeout f = true \/ exists n, In n (entries done) /\ raw = false /\ timed_out s n) /\
        (f_output f' = true <-> f_output f = true \/ exists n, In n (entries done) /\ gave_output raw s n)
    | Err e =>
        exists x rest', rest = x :: rest' /\ broke raw s x e /\
        (started es = (if raw then [] else entries done) \/
         raw = false /\ exists n, x = Some n /\ started es = entries done ++ [n])
    | Panic => False
    end.
Proof.
  induction ns as [|x ns IH]; intros f es r E.
  - cbn [entry_loop] in E. inversion E; subst. exists [], [], [].
    do 6 (split; [first [reflexivity|apply Forall2_nil|now destruct raw]|]).
    repeat split; try (intros H; now left); (intros [H|H]; [exact H|]); try contradiction; destruct H as (n & [] & _).
  - cbn [entry_loop] in E. destruct (entry_step o target raw s f x) as [es1 r1] eqn:E1.
    destruct r1 as [f1|e|].
    2:{ apply entry_step_err in E1 as ((e' & K & B) & So & No & St); [|discriminate]. assert (e' = e) by congruence. subst e'. clear K.
        inversion E; subst. exists [], (x :: ns), []. do 4 (split; [first [reflexivity|constructor|assumption]|]).
        exists x, ns. split; [reflexivity|]. split; [exact B|]. destruct St as [St|(Rw & n & -> & St)]; [left; rewrite St; now destruct raw|].
        right. split; [exact Rw|]. exists n. auto. }
    2:{ apply entry_step_err in E1 as ((e & K & _) & _); [discriminate|discriminate]. }
    destruct (entry_loop o target raw s f1 ns) as [es2 r2] eqn:E2.
    assert (es = es1 ++ es2 /\ r = r2) as [-> ->].
    { split; [exact (eq_sym (f_equal fst E))|exact (eq_sym (f_equal snd E))]. }
    clear E. destruct (IH _ _ _ E2) as (done & rest & reports & -> & F2 & So & No & M). clear IH E2.
    destruct x as [n|]; [|discriminate E1].
    destruct (is_skipped n) eqn:Sk.
    + destruct (e_open s n) eqn:Op; [|cbn [entry_step] in E1; rewrite Op in E1; discriminate].
      rewrite (entry_step_skipped _ _ _ _ _ _ Sk Op) in E1. inversion E1; subst.
      exists (n :: done), rest, reports. rewrite entries_cons, Sk. repeat split; auto.
    + destruct (entry_step_ok _ _ _ _ _ _ _ _ Sk E1) as (R1 & S1 & N1 & Fn & Ff & Ft & Fo).
      exists (n :: done), rest, (stdout es1 :: reports). rewrite entries_cons, Sk.
      split; [reflexivity|]. split; [now constructor|].
      split; [cbn [concat]; now rewrite stdout_app, So|]. split; [now rewrite notes_app, N1, No|].
      destruct r2 as [f2|e|]; [| |contradiction].
      * destruct M as (-> & St & Mn & Mf & Mt & Mo). split; [reflexivity|].
        split; [rewrite started_app, S1, St; now destruct raw|].
        split; [split; [intros _; right; discriminate|intros _; apply Mn; now left]|].
        rewrite Mf, Mt, Mo, Ff, Ft, Fo. clear. cbn [In].
        repeat split.
        -- intros [[H|H]|(m & H)]; [now left|right; exists n|right; exists m]; tauto.
        -- intros [H|(m & [H|H] & H')]; [tauto|subst m; tauto|right; exists m; tauto].
        -- intros [[H|H]|(m & H)]; [now left|right; exists n|right; exists m]; tauto.
        -- intros [H|(m & [H|H] & H')]; [tauto|subst m; tauto|right; exists m; tauto].
        -- intros [[H|H]|(m & H)]; [now left|right; exists n|right; exists m]; tauto.
        -- intros [H|(m & [H|H] & H')]; [tauto|subst m; tauto|right; exists m; tauto].
      * destruct M as (x & rest' & -> & B & St). exists x, rest'. split; [reflexivity|]. split; [exact B|].
        rewrite started_app, S1. destruct St as [St|(Rw & m & -> & St)]; rewrite St.
        -- left. now destruct raw.
        -- right. split; [exact Rw|]. exists m. split; [reflexivity|]. now rewrite Rw.
Qed.

(** The arguments and time limit of every process started. *)
Lemma entry_loop_starts o target raw s ns : forall f n a t,
  In (Start n a t) (fst (entry_loop o target raw s f ns)) ->
  a = entry_args target /\ t = (match o_timeout o with Some t => t | None => default_timeout end).
Proof.
  assert (PB : forall n b n' a t, ~ In (Start n' a t) (print_buffer n b)).
  { intros n b n' a t [H|H]; [discriminate|]. destruct (rev b) as [|c l]; [exact H|].
    destruct H as [H|H]; [discriminate|]. destruct (ascii_dec c LF); [exact H|]. destruct H as [H|[]]; discriminate. }
  assert (ST : forall f x n a t, In (Start n a t) (fst (entry_step o target raw s f x)) ->
     a = entry_args target /\ t = (match o_timeout o with Some t => t | None => default_timeout end)).
  { intros f [n|] n' a t; cbn [entry_step]; [|intros []].
    destruct (negb (e_open s n)); [intros []|]. destruct (is_skipped n); [intros []|].
    destruct raw.
    - destruct (e_raw s n); cbn [fst]; [intros H; now apply PB in H|intros []].
    - destruct (e_proc s n) as [b ok shown|b|e]; cbn [fst].
      + intros [H|H]; [inversion H; auto|]. apply in_app_or in H as [H|H]; [now apply PB in H|].
        destruct (nonempty_b b); [destruct H|]. destruct H as [H|[]]; discriminate.
      + intros [H|H]; [inversion H; auto|]. apply in_app_or in H as [H|[H|[]]]; [now apply PB in H|discriminate].
      + intros [H|[]]; inversion H; auto. }
  induction ns as [|x ns IH]; intros f n a t; cbn [entry_loop]; [intros []|].
  destruct (entry_step o target raw s f x) as [es1 [f1|e|]] eqn:E1.
  - specialize (IH f1 n a t). destruct (entry_loop o target raw s f1 ns) as [es2 r2].
    cbn [fst] in *. intros H. apply in_app_or in H as [H|H]; [|auto].
    apply (ST f x n). now rewrite E1.
  - intros H. apply (ST f x n). now rewrite E1.
  - intros H. apply (ST f x n). now rewrite E1.
Qed.

Lemma for_each_entry_starts o target rct raw s n a t :
  In (Start n a t) (fst (for_each_entry o target rct raw s)) ->
  a = entry_args target /\ t = (match o_timeout o with Some t => t | None => default_timeout end).
Proof.
  unfold for_each_entry. destruct (negb (e_exists s)); [intros []|].
  destruct (e_list s) as [ns|]; [|intros []].
  pose proof (entry_loop_starts o target raw s ns (mkfl false false false false) n a t) as K.
  destruct (entry_loop o target raw s _ ns) as [es [f|e|]]; cbn [fst] in K; try exact K.
  repeat match goal with |- context [if ?b then _ else _] => destruct b end; cbn [fst];
    try exact K; intros H; apply in_app_or in H as [H|[H|[]]]; auto; discriminate.
Qed.

(** * Summary of a run *)

Definition buggy_debug (what : str) : str :=
  lit "Encountered a " ++ what ++
  lit " while not generating coverage and not replaying. A buggy Debug implementation perhaps?".

(** The message after the entries, [None] for silence. *)
Definition summary (o : opts) (raw : bool) (s : eio) (es : list bytes) (m : option str) : Prop :=
  let fails := raw = false /\ exists n, In n es /\ failed s n in
  let times := raw = false /\ exists n, In n es /\ timed_out s n in
  let shows := exists n, In n es /\ gave_output raw s n in
  let quiet := o_coverage o <> None \/ o_replay o <> None in
  (es = [] /\ m = Some (lit "Nothing to " ++ present_participle o ++ lit ".")) \/
  (es <> [] /\ ~ fails /\ ~ times /\ ~ shows /\ m = Some (lit "No output on stderr detected.")) \/
  (es <> [] /\ ~ quiet /\ fails /\ m = Some (buggy_debug (lit "failure"))) \/
  (es <> [] /\ ~ quiet /\ ~ fails /\ times /\ m = Some (buggy_debug (lit "timeout"))) \/
  (es <> [] /\ quiet /\ (fails \/ times \/ shows) /\ m = None) \/
  (es <> [] /\ ~ fails /\ ~ times /\ shows /\ m = None).

Ltac fin := repeat match goal with
  | |- ?A /\ ?B => first [ split; [ first [assumption | reflexivity | match goal with M : ?x = ?x -> A |- _ => exact (M eq_refl) end ] | ] ]
  end; first [assumption|reflexivity|match goal with
    | M : true = true -> ?A |- ?A \/ _ => left; exact (M eq_refl)
    | M : true = true -> ?A |- _ \/ ?A \/ _ => right; left; exact (M eq_refl)
    | M : true = true -> ?A |- _ \/ _ \/ ?A => right; right; exact (M eq_refl)
    | M : ?x = ?x -> ?A |- ?A => exact (M eq_refl) end].

Lemma for_each_entry_spec o target rct raw s es r :
  for_each_entry o target rct raw s = (es, r) ->
  (e_exists s = false /\ es = [] /\
     r = Err (lit "Could not find `" ++ lossy (path_text dir) ++ lit "`" ++ (if rct then lit ". Did you remember to run `cargo test`?" else []))) \/
  (e_exists s = true /\ e_list s = None /\ es = [] /\ r = Err (failed_for (lit "read_dir") dir)) \/
  exists done rest reports,
    e_exists s = true /\ e_list s = Some (map Some done ++ rest) /\
    Forall2 (report raw s) (entries done) reports /\ stdout es = concat reports /\
    match r with
    | Ret _ => rest = [] /\ started es = (if raw then [] else entries done) /\
        exists m, summary o raw s (entries done) m /\ notes es = match m with Some m => [m] | None => [] end
    | Err e => exists x rest', rest = x :: rest' /\ broke raw s x e /\ notes es = [] /\
        (started es = (if raw then [] else entries done) \/
         raw = false /\ exists n, x = Some n /\ started es = entries done ++ [n])
    | Panic => False
    end.
Proof.
  unfold for_each_entry. destruct (e_exists s); cbn [negb].
  2:{ intros E. left. split; [reflexivity|]. split; [exact (eq_sym (f_equal fst E))|]. exact (eq_sym (f_equal snd E)). }
  destruct (e_list s) as [ns|].
  2:{ intros E. right; left. repeat split. - exact (eq_sym (f_equal fst E)). - exact (eq_sym (f_equal snd E)). }
  destruct (entry_loop o target raw s _ ns) as [es1 r1] eqn:L. intros E. right; right.
  destruct (entry_loop_spec _ _ _ _ _ _ _ _ L) as (done & rest & reports & -> & F2 & So & No & M). clear L.
  exists done, rest, reports. split; [reflexivity|]. split; [reflexivity|]. split; [exact F2|].
  destruct r1 as [f|e|]; [| |contradiction].
  2:{ assert (es = es1 /\ r = Err e) as [-> ->].
      { split; [exact (eq_sym (f_equal fst E))|exact (eq_sym (f_equal snd E))]. }
      split; [exact So|]. destruct M as (x & rest' & -> & B & St). exists x, rest'. auto. }
  destruct M as (-> & St & Mn & Mf & Mt & Mo). cbn [f_nonempty f_failure f_timeout f_output] in *.
  set (ds := entries done) in *. clearbody ds.
  assert (SN : forall m, started (es1 ++ [Note m]) = started es1) by (intros; rewrite started_app; apply app_nil_r).
  assert (SO : forall m, stdout (es1 ++ [Note m]) = stdout es1) by (intros; rewrite stdout_app; apply app_nil_r).
  assert (SM : forall m, notes (es1 ++ [Note m]) = [m]) by (intros; rewrite notes_app, No; reflexivity).
  destruct f as [fn ff ft fo]. cbn [f_nonempty f_failure f_timeout f_output] in *.
  assert (Mn' : fn = true <-> ds <> []) by (rewrite Mn; intuition discriminate).
  assert (Mf' : ff = true <-> raw = false /\ exists n, In n ds /\ failed s n).
  { rewrite Mf. split; [intros [H|(n & I & Rw & H)]; [discriminate|split; [exact Rw|eauto]]|intros (Rw & n & I & H); right; eauto]. }
  assert (Mt' : ft = true <-> raw = false /\ exists n, In n ds /\ timed_out s n).
  { rewrite Mt. split; [intros [H|(n & I & Rw & H)]; [discriminate|split; [exact Rw|eauto]]|intros (Rw & n & I & H); right; eauto]. }
  assert (Mo' : fo = true <-> exists n, In n ds /\ gave_output raw s n).
  { rewrite Mo. split; [intros [H|H]; [discriminate|exact H]|now right]. }
  clear Mn Mf Mt Mo F2.
  assert (NE : fn = false -> ff = false /\ ft = false /\ fo = false /\ ds = []).
  { intros ->. assert (ds = []) as ->.
    { destruct ds; [reflexivity|]. destruct Mn' as [_ K]. discriminate K. discriminate. }
    destruct ff; [destruct Mf' as [K _]; destruct (K eq_refl) as (_ & ? & [] & _)|].
    destruct ft; [destruct Mt' as [K _]; destruct (K eq_refl) as (_ & ? & [] & _)|].
    destruct fo; [destruct Mo' as [K _]; destruct (K eq_refl) as (? & [] & _)|]. auto. }
  unfold summary. destruct fn; cbn [negb andb] in E.
  2:{ destruct (NE eq_refl) as (-> & -> & -> & ->). cbn [orb] in E.
      assert (es = es1 ++ [Note (lit "Nothing to " ++ present_participle o ++ lit ".")] /\ r = Ret tt) as [-> ->].
      { split; [exact (eq_sym (f_equal fst E))|exact (eq_sym (f_equal snd E))]. }
      rewrite SN, SO, SM. split; [exact So|]. split; [reflexivity|]. split; [exact St|].
      eexists. split; [left; split; reflexivity|reflexivity]. }
  clear NE. assert (Hne : ds <> []) by (apply Mn'; reflexivity). clear Mn'.
  assert (Q : forall (A : Type) (x : option A), negb (is_some x) = false <-> x <> None).
  { intros A [a|]; cbn; split; congruence. }
  assert (Mff : ff = false -> ~ (raw = false /\ exists n, In n ds /\ failed s n)) by (intros -> K; apply Mf' in K; discriminate).
  assert (Mtf : ft = false -> ~ (raw = false /\ exists n, In n ds /\ timed_out s n)) by (intros -> K; apply Mt' in K; discriminate).
  assert (Mof : fo = false -> ~ (exists n, In n ds /\ gave_output raw s n)) by (intros -> K; apply Mo' in K; discriminate).
  destruct Mf' as [Mft _], Mt' as [Mtt _], Mo' as [Mot _].
  destruct (negb (is_some (o_coverage o))) eqn:Qc; [destruct (negb (is_some (o_replay o))) eqn:Qr|].
  - assert (NQ : ~ (o_coverage o <> None \/ o_replay o <> None)).
    { intros [K|K]; apply Q in K; congruence. }
    destruct ff, ft, fo; cbn [negb orb andb] in E;
      match type of E with (?a, ?b) = _ => assert (es = a /\ r = b) as [-> ->]
        by (split; [exact (eq_sym (f_equal fst E))|exact (eq_sym (f_equal snd E))]) end;
      rewrite ?SN, ?SO; (split; [exact So|]; split; [reflexivity|]; split; [exact St|]).
    1-4: exists (Some (buggy_debug (lit "failure"))); split; [|apply SM]; right; right; left; fin.
    1-2: exists (Some (buggy_debug (lit "timeout"))); split; [|apply SM]; right; right; right; left; fin.
    + exists None. split; [|exact No]. do 5 right. fin.
    + exists (Some (lit "No output on stderr detected.")). split; [|apply SM]. right; left. fin.
  - assert (YQ : o_coverage o <> None \/ o_replay o <> None) by (right; now apply Q).
    destruct ff, ft, fo; cbn [negb orb andb] in E;
      match type of E with (?a, ?b) = _ => assert (es = a /\ r = b) as [-> ->]
        by (split; [exact (eq_sym (f_equal fst E))|exact (eq_sym (f_equal snd E))]) end;
      rewrite ?SN, ?SO; (split; [exact So|]; split; [reflexivity|]; split; [exact St|]).
    8: exists (Some (lit "No output on stderr detected.")); split; [|apply SM]; right; left; fin.
    all: exists None; (split; [|exact No]); do 4 right; left; split; [exact Hne|split; [exact YQ|split; [|reflexivity]]]; fin.
  - assert (YQ : o_coverage o <> None \/ o_replay o <> None) by (left; now apply Q).
    destruct ff, ft, fo; cbn [negb orb andb] in E;
      match type of E with (?a, ?b) = _ => assert (es = a /\ r = b) as [-> ->]
        by (split; [exact (eq_sym (f_equal fst E))|exact (eq_sym (f_equal snd E))]) end;
      rewrite ?SN, ?SO; (split; [exact So|]; split; [reflexivity|]; split; [exact St|]).
    8: exists (Some (lit "No output on stderr detected.")); split; [|apply SM]; right; left; fin.
    all: exists None; (split; [|exact No]); do 4 right; left; split; [exact Hne|split; [exact YQ|split; [|reflexivity]]]; fin.
Qed.

(** Reports are unique and, for harness output, end with a newline. *)
Lemma shown_buffer_fun n b r r' : shown_buffer n b r -> shown_buffer n b r' -> r = r'.
Proof. intros [(A & B)|[(A & B & C)|(A & B & C)]] [(A' & B')|[(A' & B' & C')|(A' & B' & C')]]; congruence || contradiction. Qed.

Lemma report_fun raw s n r r' : report raw s n r -> report raw s n r' -> r = r'.
Proof.
  destruct raw; cbn [report].
  - intros (b & E & H) (b' & E' & H'). rewrite E in E'. injection E' as <-. eapply shown_buffer_fun; eauto.
  - intros [(b & E & q & H & ->)|(b & ok & sh & E & H)] [(b' & E' & q' & H' & ->)|(b' & ok' & sh' & E' & H')];
      rewrite E in E'; inversion E'; subst.
    + f_equal. eapply shown_buffer_fun; [exact H|exact H'].
    + destruct H as [(A & H)|(A & H)], H' as [(A' & H')|(A' & H')]; try contradiction; try congruence.
      eapply shown_buffer_fun; eauto.
Qed.

Lemma ends_lf_app a b : ends_lf b -> ends_lf (a ++ b).
Proof. intros [t ->]. exists (a ++ t). now rewrite app_assoc. Qed.

Lemma ends_lf_one : ends_lf [LF].
Proof. now exists []. Qed.

Lemma shown_buffer_ends n b r : shown_buffer n b r -> b <> [] -> ends_lf r.
Proof.
  intros [(A & B)|[(A & B & ->)|(A & B & ->)]] N; [contradiction| |].
  - do 2 apply ends_lf_app. now apply lossy_ends_lf.
  - do 3 apply ends_lf_app. apply ends_lf_one.
Qed.

Lemma proc_report_ends s n r : proc_report s n r -> ends_lf r.
Proof.
  intros [(b & E & q & H & ->)|(b & ok & sh & E & [(A & H)|(A & ->)])].
  - do 2 apply ends_lf_app. apply ends_lf_one.
  - eapply shown_buffer_ends; eauto.
  - do 3 apply ends_lf_app. apply ends_lf_one.
Qed.

Lemma shown_buffer_prefix n b r : shown_buffer n b r -> exists t, r = lossy n ++ lit ": " ++ t.
Proof.
  intros [(A & B)|[(A & B & ->)|(A & B & ->)]].
  - exists []. now rewrite app_nil_r.
  - eauto.
  - eauto.
Qed.

Lemma report_prefix raw s n r : report raw s n r -> exists t, r = lossy n ++ lit ": " ++ t.
Proof.
  destruct raw; cbn [report].
  - intros (b & _ & H). eapply shown_buffer_prefix; eauto.
  - intros [(b & E & q & H & ->)|(b & ok & sh & E & [(A & H)|(A & ->)])].
    + apply shown_buffer_prefix in H as [t ->]. exists (t ++ lit "Timeout" ++ [LF]). now rewrite <- !app_assoc.
    + eapply shown_buffer_prefix; eauto.
    + eauto.
Qed.
End Dir.
