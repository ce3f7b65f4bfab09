(** C85: the command line. *)
From Coq Require Import List Ascii String Bool Arith NArith Lia Permutation.
From Verif Require Import Base Utf8 Env Opts Decimal Cli.
Import ListNotations.
Local Open Scope nat_scope.

(** * Specification *)

(** The names as documented (README, usage). *)
Definition flag_words (f : flag) : list string :=
  match f with
  | FBacktrace => ["--backtrace"] | FConsolidate => ["--consolidate"] | FConsolidateAll => ["--consolidate-all"]
  | FExact => ["--exact"] | FExitCode => ["--exit-code"] | FList => ["--list"] | FNoDefaultFeatures => ["--no-default-features"]
  | FNoInstrumentation => ["--no-instrumentation"] | FNoRun => ["--no-run"] | FNoUi => ["--no-ui"] | FPersistent => ["--persistent"]
  | FPretty => ["--pretty"; "--pretty-print"] | FRelease => ["--release"] | FReset => ["--reset"] | FResetAll => ["--reset-all"]
  | FResume => ["--resume"] | FRunUntilCrash => ["--run-until-crash"] | FVerbose => ["--verbose"]
  end%string.
Definition option_word (k : vopt) : string :=
  match k with
  | OCoverage => "--coverage" | OCpus => "--cpus" | ODisplay => "--display" | OFeatures => "--features"
  | OManifestPath => "--manifest-path" | OMaxTotalTime => "--max-total-time" | OPackage => "--package" | OReplay => "--replay"
  | OSlice => "--slice" | OTest => "--test" | OTimeout => "--timeout"
  end%string.
Definition object_word (x : object) : string :=
  match x with
  | Corpus_ => "corpus" | CorpusInstrumented => "corpus-instrumented" | Crashes => "crashes"
  | CrashesInstrumented => "crashes-instrumented" | GenericArgs_ => "generic-args" | Hangs => "hangs"
  | HangsInstrumented => "hangs-instrumented" | ImplGenericArgs_ => "impl-generic-args" | Queue => "queue"
  | QueueInstrumented => "queue-instrumented"
  end%string.

(** What a user can write before [--]: a flag, an option with a value, the target. *)
Inductive item := IFlag (f : flag) | IOpt (k : vopt) (v : str) | ITarget (t : str).

(** A word that is not taken for an option. *)
Definition ordinary (v : str) : Prop := v = lit "-" \/ forall r, v <> "-"%char :: r.

(** How it can be written. *)
Inductive spells : item -> list str -> Prop :=
  | sp_flag f w : In w (flag_words f) -> spells (IFlag f) [lit w]
  | sp_opt k v : ordinary v -> spells (IOpt k v) [lit (option_word k); v]
  | sp_opt_eq k v : spells (IOpt k v) [lit (option_word k) ++ "="%char :: v]
  | sp_p v : ordinary v -> spells (IOpt OPackage v) [lit "-p"; v]
  | sp_p_eq v : spells (IOpt OPackage v) [lit "-p=" ++ v]
  | sp_p_attached v : v <> [] -> (forall r, v <> "="%char :: r) -> spells (IOpt OPackage v) [lit "-p" ++ v]
  | sp_target t : ordinary t -> spells (ITarget t) [t].

(** The whole command line: the items, then possibly [--] and the fuzzer's arguments. *)
Definition written (items : list item) (zz : list str) (args : list str) : Prop :=
  exists words, Forall2 spells items words /\
    ((args = List.concat words /\ zz = []) \/ args = List.concat words ++ lit "--" :: zz).

Definition same_thing (x y : item) : Prop :=
  match x, y with
  | IFlag f, IFlag g => f = g
  | IOpt k _, IOpt l _ => k = l /\ k <> OFeatures
  | ITarget _, ITarget _ => True
  | _, _ => False
  end.

(** The number a numeral denotes, if it fits. *)
Definition number (s : str) (n : N) : Prop :=
  exists ds, (s = ds \/ s = "+"%char :: ds) /\ ds <> [] /\ Forall is_digit ds /\ Decimal.value ds = n /\ (n < 2 ^ 64)%N.
Definition names_object (s : str) (x : object) : Prop := s = lit (object_word x).
Definition itself (s t : str) : Prop := t = s.

(** The setting of an option, converted by [rel]. *)
Definition setting {A} (items : list item) (k : vopt) (rel : str -> A -> Prop) (o : option A) : Prop :=
  match o with
  | None => forall v, ~ In (IOpt k v) items
  | Some a => exists v, In (IOpt k v) items /\ rel v a
  end.

Definition field_of (f : flag) (o : opts) : option bool :=
  match f with
  | FBacktrace => Some (o_backtrace o) | FConsolidate => Some (o_consolidate o) | FConsolidateAll => Some (o_consolidate_all o)
  | FExact => Some (o_exact o) | FExitCode => Some (o_exit_code o) | FList => Some (o_list o)
  | FNoDefaultFeatures => Some (o_no_default_features o) | FNoInstrumentation => None | FNoRun => Some (o_no_run o)
  | FNoUi => Some (o_no_ui o) | FPersistent => Some (o_persistent o) | FPretty => Some (o_pretty o)
  | FRelease => Some (o_release o) | FReset => Some (o_reset o) | FResetAll => Some (o_reset_all o) | FResume => Some (o_resume o)
  | FRunUntilCrash => Some (o_run_until_crash o) | FVerbose => Some (o_verbose o)
  end.

Fixpoint features_in (items : list item) : list str :=
  match items with
  | [] => []
  | IOpt OFeatures v :: items => v :: features_in items
  | _ :: items => features_in items
  end.

(** The options [o] are what the items ask for: nothing twice, every value valid, and
    every field as given. *)
Definition means (items : list item) (zz : list str) (o : opts) : Prop :=
  ForallOrdPairs (fun x y => ~ same_thing x y) items /\
  (forall f b, field_of f o = Some b -> (b = true <-> In (IFlag f) items)) /\
  setting items OCoverage names_object (o_coverage o) /\ setting items ODisplay names_object (o_display o) /\
  setting items OReplay names_object (o_replay o) /\
  setting items OCpus number (option_map N.of_nat (o_cpus o)) /\ setting items OMaxTotalTime number (o_max_total_time o) /\
  setting items OTimeout number (o_timeout o) /\
  (setting items OSlice number (Some (o_slice o)) \/ setting items OSlice number None /\ o_slice o = 1200%N) /\
  setting items OManifestPath itself (o_manifest_path o) /\ setting items OPackage itself (o_package o) /\
  setting items OTest itself (o_test o) /\
  o_features o = features_in items /\
  (match o_ztarget o with Some t => In (ITarget t) items | None => forall t, ~ In (ITarget t) items end) /\
  o_zzargs o = zz.

(** * Proofs *)

Lemma assoc_in {B} (l : list (str * B)) k b : assoc l k = Some b -> In (k, b) l.
Proof.
  induction l as [|[k' b'] l IH]; cbn [assoc]; [discriminate|]. destruct (str_eqb k k') eqn:E; [|right; auto].
  intros [= ->]. apply str_eqb_eq in E. left. congruence.
Qed.

Lemma split_eq_app n v : ~ In "="%char n -> split_eq (n ++ "="%char :: v) = (n, Some v).
Proof.
  induction n as [|c n IH]; intros H; [reflexivity|]. cbn [app split_eq].
  assert (N : c <> "="%char) by (intros ->; apply H; now left).
  rewrite IH by (intros I; apply H; now right).
  destruct c as [[] [] [] [] [] [] [] []]; try reflexivity. now destruct N.
Qed.

Lemma split_eq_none n : ~ In "="%char n -> split_eq n = (n, None).
Proof.
  induction n as [|c n IH]; intros H; [reflexivity|]. cbn [split_eq].
  assert (N : c <> "="%char) by (intros ->; apply H; now left).
  rewrite IH by (intros I; apply H; now right).
  destruct c as [[] [] [] [] [] [] [] []]; try reflexivity. now destruct N.
Qed.

Lemma split_eq_inv s n v : split_eq s = (n, v) -> match v with None => s = n | Some v => s = n ++ "="%char :: v end.
Proof.
  revert n v. induction s as [|c s IH]; intros n v; cbn [split_eq]; [intros [= <- <-]; reflexivity|].
  destruct (ascii_dec c "=") as [->|N].
  - intros [= <- <-]. reflexivity.
  - assert (E : split_eq (c :: s) = let (n, v) := split_eq s in (c :: n, v)).
    { destruct c as [[] [] [] [] [] [] [] []]; try reflexivity. now destruct N. }
    cbn [split_eq] in E. rewrite E. destruct (split_eq s) as [n' v'] eqn:S. specialize (IH _ _ eq_refl).
    intros [= <- <-]. destruct v'; cbn; congruence.
Qed.

(** A tail after the two dashes. *)
Definition tail2 (s : string) : str := skipn 2 (lit s).

Lemma flag_lookup f w : In w (flag_words f) ->
  lit w = "-"%char :: "-"%char :: tail2 w /\ assoc long_names (tail2 w) = Some (inl f) /\ ~ In "="%char (tail2 w) /\ tail2 w <> [].
Proof.
  intros I. destruct f; cbn in I; repeat (destruct I as [<-|I]); try contradiction;
    (split; [reflexivity|split; [reflexivity|split; [cbn; intuition discriminate|discriminate]]]).
Qed.

Lemma option_lookup k :
  lit (option_word k) = "-"%char :: "-"%char :: tail2 (option_word k) /\ assoc long_names (tail2 (option_word k)) = Some (inr k) /\
  ~ In "="%char (tail2 (option_word k)) /\ tail2 (option_word k) <> [].
Proof. destruct k; (split; [reflexivity|split; [reflexivity|split; [cbn; intuition discriminate|discriminate]]]). Qed.

Lemma names_flag n f : assoc long_names n = Some (inl f) -> exists w, In w (flag_words f) /\ "-"%char :: "-"%char :: n = lit w.
Proof.
  intros H. apply assoc_in in H. cbn [long_names In] in H.
  repeat (destruct H as [H|H]; [first [discriminate H|injection H as <- <-; match goal with |- exists w, _ /\ ?l = _ => exists (string_of_list_ascii l) end; split; [vm_compute; tauto|reflexivity]]|]).
  contradiction.
Qed.

Lemma names_option n k : assoc long_names n = Some (inr k) -> "-"%char :: "-"%char :: n = lit (option_word k).
Proof.
  intros H. apply assoc_in in H. cbn [long_names In] in H.
  repeat (destruct H as [H|H]; [first [discriminate H|injection H as <- <-; reflexivity]|]).
  contradiction.
Qed.

Definition apply_item (r : raw) (x : item) : raw :=
  match x with IFlag f => add_flag f r | IOpt k v => add_val k v r | ITarget t => add_target t r end.

Lemma ordinary_step r v : ordinary v ->
  str_eqb v (lit "--") = false /\
  step r v = match r_pending r with Some k => Some (add_val k v r) | None => Some (add_target v r) end.
Proof.
  intros [->|N]; [split; reflexivity|].
  destruct v as [|c v]; [split; reflexivity|].
  assert (C : c <> "-"%char) by (intros ->; now destruct (N v)).
  split.
  - destruct (str_eqb (c :: v) (lit "--")) eqn:E; [|reflexivity]. apply str_eqb_eq in E. cbn in E. congruence.
  - destruct c as [[] [] [] [] [] [] [] []]; try reflexivity. now destruct C.
Qed.

Lemma str_eqb_no a b : a <> b -> str_eqb a b = false.
Proof. intros H. destruct (str_eqb a b) eqn:E; [|reflexivity]. apply str_eqb_eq in E. contradiction. Qed.

Lemma read_item r x ws tl : spells x ws -> r_pending r = None -> read r (ws ++ tl) = read (apply_item r x) tl.
Proof.
  intros S P. destruct S as [f w I|k v O|k v|v O|v|v N E|t O]; cbn [app apply_item].
  - destruct (flag_lookup f w I) as (-> & L & Q & Ne). cbn [read].
    rewrite str_eqb_no by (intros X; injection X as X; exact (Ne X)). cbn [step]. now rewrite P, (split_eq_none _ Q), L.
  - destruct (option_lookup k) as (-> & L & Q & Ne). cbn [read].
    rewrite str_eqb_no by (intros X; injection X as X; exact (Ne X)). cbn [step]. rewrite P, (split_eq_none _ Q), L. cbn [read].
    destruct (ordinary_step (await k r) v O) as (-> & ->). reflexivity.
  - destruct (option_lookup k) as (-> & L & Q & Ne). cbn [app read].
    rewrite str_eqb_no by (intros X; injection X as X; destruct (tail2 (option_word k)); discriminate).
    cbn [step]. now rewrite P, (split_eq_app _ v Q), L.
  - assert (S1 : step r (lit "-p") = Some (await OPackage r)) by (cbn; now rewrite P).
    cbn [read]. rewrite str_eqb_no by discriminate. rewrite S1. cbn [read].
    destruct (ordinary_step (await OPackage r) v O) as (-> & ->). reflexivity.
  - assert (S1 : step r (lit "-p=" ++ v) = Some (add_val OPackage v r)) by (cbn; now rewrite P).
    cbn [read]. rewrite str_eqb_no by discriminate. now rewrite S1.
  - assert (S1 : step r (lit "-p" ++ v) = Some (add_val OPackage v r)).
    { destruct v as [|c v]; [contradiction|]. assert (C : c <> "="%char) by (intros ->; now destruct (E v)).
      cbn. rewrite P. destruct c as [[] [] [] [] [] [] [] []]; try reflexivity. now destruct C. }
    cbn [read]. rewrite str_eqb_no by discriminate. now rewrite S1.
  - cbn [read]. destruct (ordinary_step r t O) as (-> & ->). now rewrite P.
Qed.

Lemma apply_pending r x : r_pending (apply_item r x) = None.
Proof. destruct x; reflexivity. Qed.

Lemma read_items items words : Forall2 spells items words -> forall r tl, r_pending r = None ->
  read r (List.concat words ++ tl) = read (fold_left apply_item items r) tl.
Proof.
  induction 1 as [|x ws items words S F IH]; intros r tl P; [reflexivity|].
  cbn [List.concat fold_left]. rewrite <- app_assoc, (read_item r x ws _ S P). apply IH. apply apply_pending.
Qed.

Lemma fold_pending items : forall r, r_pending r = None -> r_pending (fold_left apply_item items r) = None.
Proof. induction items as [|x items IH]; intros r P; [exact P|]. apply IH, apply_pending. Qed.

Lemma read_written items zz args : written items zz args ->
  forall r, r_pending r = None -> r_rest r = [] ->
  read r args = Some (set_rest zz (fold_left apply_item items r)).
Proof.
  intros (words & F & A) r P Z.
  assert (Q : r_rest (fold_left apply_item items r) = []).
  { clear F A. revert r P Z. induction items as [|x items IH]; intros r P Z; [exact Z|]. cbn [fold_left].
    apply IH; [apply apply_pending|destruct x; exact Z]. }
  pose proof (fold_pending items r P) as P'. destruct A as [[-> ->]| ->].
  - rewrite <- (app_nil_r (List.concat words)), (read_items items words F r [] P). cbn [read].
    rewrite P'. unfold set_rest. destruct (fold_left apply_item items r); cbn in *; subst. reflexivity.
  - rewrite (read_items items words F r _ P). cbn [read]. rewrite str_eqb_refl. now rewrite P'.
Qed.

(** The other direction: everything that is read was written. *)
Lemma step_inv r a r' : step r a = Some r' -> a <> lit "--" -> r_pending r = None ->
  (exists x, spells x [a] /\ r' = apply_item r x) \/
  (exists k, r' = await k r /\ (forall v, ordinary v -> spells (IOpt k v) [a; v])).
Proof.
  intros S N P. destruct a as [|c a].
  - cbn in S. rewrite P in S. injection S as <-. left. exists (ITarget []). split; [|reflexivity]. constructor. right. discriminate.
  - destruct (ascii_dec c "-") as [->|C].
    + destruct a as [|d a].
      * cbn in S. rewrite P in S. injection S as <-. left. exists (ITarget (lit "-")). split; [|reflexivity]. constructor. now left.
      * destruct (ascii_dec d "-") as [->|D].
        -- cbn [step] in S. rewrite P in S. destruct (split_eq a) as [n v] eqn:E. apply split_eq_inv in E.
           destruct (assoc long_names n) as [[f|k]|] eqn:L; [|destruct v as [v|]|]; try discriminate S.
           ++ destruct v; [discriminate S|]. injection S as <-. subst a. left. destruct (names_flag n f L) as (w & I & ->).
              exists (IFlag f). split; [now constructor|reflexivity].
           ++ injection S as <-. subst a. left. exists (IOpt k v). split; [|reflexivity].
              change ("-"%char :: "-"%char :: n ++ "="%char :: v) with (("-"%char :: "-"%char :: n) ++ "="%char :: v).
              rewrite (names_option n k L). constructor.
           ++ injection S as <-. subst a. right. exists k. split; [reflexivity|]. intros v O. rewrite (names_option n k L). now constructor.
        -- assert (S' : (if ascii_dec d "p" then
                           match a with
                           | [] => Some (await OPackage r)
                           | "="%char :: v => Some (add_val OPackage v r)
                           | v => Some (add_val OPackage v r)
                           end else None) = Some r').
           { rewrite <- S. cbn [step]. rewrite P. destruct d as [[] [] [] [] [] [] [] []]; try reflexivity. now destruct D. }
           clear S. destruct (ascii_dec d "p") as [->|]; [|discriminate S'].
           destruct a as [|e a].
           ++ injection S' as <-. right. exists OPackage. split; [reflexivity|]. intros v O. now apply sp_p.
           ++ destruct (ascii_dec e "=") as [->|E].
              ** injection S' as <-. left. exists (IOpt OPackage a). split; [apply (sp_p_eq a)|reflexivity].
              ** assert (Some (add_val OPackage (e :: a) r) = Some r') as [= <-].
                 { rewrite <- S'. destruct e as [[] [] [] [] [] [] [] []]; try reflexivity. now destruct E. }
                 left. exists (IOpt OPackage (e :: a)). split; [|reflexivity].
                 apply (sp_p_attached (e :: a)); [discriminate|]. intros q [= -> _]. now apply E.
    + assert (O : ordinary (c :: a)) by (right; intros q [= -> _]; now apply C).
      destruct (ordinary_step r (c :: a) O) as (_ & E). rewrite E, P in S. injection S as <-.
      left. exists (ITarget (c :: a)). split; [now constructor|reflexivity].
Qed.

Lemma step_pending r k a r' : step r a = Some r' -> a <> lit "--" -> r_pending r = Some k -> ordinary a /\ r' = add_val k a r.
Proof.
  intros S N P.
  assert (O : ordinary a).
  { destruct a as [|c a]; [right; discriminate|]. destruct (ascii_dec c "-") as [->|C]; [|right; intros q [= -> _]; now apply C].
    destruct a as [|d a]; [now left|]. exfalso.
    destruct (ascii_dec d "-") as [->|D]; [cbn [step] in S; rewrite P in S; discriminate S|].
    assert (step r ("-"%char :: d :: a) = None).
    { cbn [step]. rewrite P. destruct d as [[] [] [] [] [] [] [] []]; reflexivity. }
    congruence. }
  split; [exact O|]. destruct (ordinary_step r a O) as (_ & E). rewrite E, P in S. now injection S as <-.
Qed.

Lemma read_inv : forall args r r', read r args = Some r' -> r_rest r = [] ->
  match r_pending r with
  | None => exists items zz, written items zz args /\ r' = set_rest zz (fold_left apply_item items r)
  | Some k => exists v rest items zz, args = v :: rest /\ ordinary v /\ written items zz rest /\
      r' = set_rest zz (fold_left apply_item items (add_val k v r))
  end.
Proof.
  induction args as [|a args IH]; intros r r' R Z; cbn [read] in R.
  - destruct (r_pending r) eqn:P; [discriminate|]. injection R as <-. exists [], []. split.
    + exists []. split; [constructor|]. left. auto.
    + destruct r; cbn in *. now subst.
  - destruct (str_eqb a (lit "--")) eqn:E.
    + apply str_eqb_eq in E as ->. destruct (r_pending r) eqn:P; [discriminate|]. injection R as <-.
      exists [], args. split; [|reflexivity]. exists []. split; [constructor|]. now right.
    + assert (N : a <> lit "--") by (intros ->; now rewrite str_eqb_refl in E).
      destruct (step r a) as [r1|] eqn:S; [|discriminate]. destruct (r_pending r) as [k|] eqn:P.
      * destruct (step_pending r k a r1 S N P) as (O & ->). destruct (IH _ _ R Z) as (items & zz & W & ->).
        exists a, args, items, zz. auto.
      * destruct (step_inv r a r1 S N P) as [(x & Sp & ->)|(k & -> & Sp)].
        -- specialize (IH _ _ R). rewrite apply_pending in IH. destruct IH as (items & zz & W & ->); [destruct x; exact Z|].
           exists (x :: items), zz. split; [|reflexivity]. destruct W as (words & F & A). exists ([a] :: words).
           split; [now constructor|]. cbn [List.concat app]. destruct A as [[-> ->]| ->]; auto.
        -- specialize (IH _ _ R Z). cbn [await r_pending] in IH. destruct IH as (v & rest & items & zz & -> & O & W & ->).
           exists (IOpt k v :: items), zz. split; [|reflexivity].
           destruct W as (words & F & A). exists ([a; v] :: words). split; [constructor; auto|]. cbn [List.concat app].
           destruct A as [[-> ->]| ->]; auto.
Qed.

(** What has been collected, in the order of the command line. *)
Fixpoint flags_in (l : list item) : list flag :=
  match l with [] => [] | IFlag f :: l => f :: flags_in l | _ :: l => flags_in l end.
Fixpoint vals_in (l : list item) : list (vopt * str) :=
  match l with [] => [] | IOpt k v :: l => (k, v) :: vals_in l | _ :: l => vals_in l end.
Fixpoint targets_in (l : list item) : list str :=
  match l with [] => [] | ITarget t :: l => t :: targets_in l | _ :: l => targets_in l end.

Lemma fold_raw items : forall r,
  r_flags (fold_left apply_item items r) = rev (flags_in items) ++ r_flags r /\
  r_vals (fold_left apply_item items r) = rev (vals_in items) ++ r_vals r /\
  r_targets (fold_left apply_item items r) = rev (targets_in items) ++ r_targets r.
Proof.
  induction items as [|x items IH]; intros r; [auto|]. cbn [fold_left]. destruct (IH (apply_item r x)) as (A & B & C).
  rewrite A, B, C. destruct x; cbn; rewrite <- ?app_assoc; auto.
Qed.

Lemma in_flags l f : In f (flags_in l) <-> In (IFlag f) l.
Proof. induction l as [|[] l IH]; cbn; try tauto; rewrite IH; intuition congruence. Qed.
Lemma in_vals l k v : In (k, v) (vals_in l) <-> In (IOpt k v) l.
Proof. induction l as [|[] l IH]; cbn; try tauto; rewrite IH; intuition congruence. Qed.
Lemma in_targets l t : In t (targets_in l) <-> In (ITarget t) l.
Proof. induction l as [|[] l IH]; cbn; try tauto; rewrite IH; intuition congruence. Qed.

Lemma distinct_NoDup {A} dec (l : list A) : distinct dec l = true <-> NoDup l.
Proof.
  induction l as [|a l IH]; cbn [distinct]; [split; [constructor|reflexivity]|].
  rewrite andb_true_iff, IH. destruct (in_dec dec a l) as [I|I]; cbn; split.
  - intros [? _]; discriminate.
  - intros N. inversion N; contradiction.
  - intros [_ N]. now constructor.
  - intros N. inversion N. auto.
Qed.

Lemma NoDup_rev' {A} (l : list A) : NoDup (rev l) <-> NoDup l.
Proof. split; intros H; [rewrite <- (rev_involutive l)|]; now apply NoDup_rev. Qed.

Definition notfeat (k : vopt) : bool := if vopt_eq_dec k OFeatures then false else true.

Lemma filter_rev {A} (f : A -> bool) l : filter f (rev l) = rev (filter f l).
Proof.
  induction l as [|a l IH]; [reflexivity|]. cbn [rev filter]. rewrite filter_app, IH. cbn [filter].
  destruct (f a); cbn; [reflexivity|now rewrite app_nil_r].
Qed.

Lemma ord_single items : ForallOrdPairs (fun x y => ~ same_thing x y) items <->
  NoDup (flags_in items) /\ NoDup (filter notfeat (map fst (vals_in items))) /\ List.length (targets_in items) <= 1.
Proof.
  induction items as [|x items IH].
  - cbn. split; [intros _; repeat split; try constructor; auto|constructor].
  - assert (C : ForallOrdPairs (fun x y => ~ same_thing x y) (x :: items) <->
        Forall (fun y => ~ same_thing x y) items /\ ForallOrdPairs (fun x y => ~ same_thing x y) items).
    { split; [intros H; inversion H; auto|intros [H K]; now constructor]. }
    rewrite C, IH. clear C IH. rewrite Forall_forall. destruct x as [f|k v|t]; cbn [flags_in vals_in targets_in map filter fst List.length].
    + rewrite NoDup_cons_iff, in_flags. split.
      * intros (N & A & B & D). repeat split; auto. intros I. exact (N _ I eq_refl).
      * intros ((N & A) & B & D). repeat split; auto. intros y I S. destruct y; cbn in S; try contradiction. subst. auto.
    + unfold notfeat at 2. destruct (vopt_eq_dec k OFeatures) as [->|NF].
      * split; [intros (N & H); exact H|]. intros H. split; [|exact H]. intros y I S. destruct y; cbn in S; try contradiction. now destruct S.
      * rewrite NoDup_cons_iff, filter_In, in_map_iff. split.
        -- intros (N & A & B & D). repeat split; auto. intros (([k' v'] & <- & I) & _). apply in_vals in I. cbn in *.
           exact (N _ I (conj eq_refl NF)).
        -- intros (A & (N & B) & D). repeat split; auto. intros y I S. destruct y; cbn in S; try contradiction. destruct S as (-> & _).
           apply N. split; [|unfold notfeat; now destruct (vopt_eq_dec k0 OFeatures)]. exists (k0, v0). split; [reflexivity|]. now apply in_vals.
    + split.
      * intros (N & A & B & D). repeat split; auto. destruct (targets_in items) as [|t' l] eqn:E; [cbn; lia|].
        exfalso. apply (N (ITarget t')); [|exact I]. apply in_targets. rewrite E. now left.
      * intros (A & B & D). repeat split; auto; [|lia]. intros y J S. destruct y; cbn in S; try contradiction.
        apply in_targets in J. destruct (targets_in items); cbn in *; [contradiction|lia].
Qed.

Lemma value_of_in l k v : value_of l k = Some v -> In (k, v) l.
Proof.
  induction l as [|[k' v'] l IH]; cbn; [discriminate|]. destruct (vopt_eq_dec k k') as [<-|]; [intros [= ->]; auto|auto].
Qed.
Lemma value_of_none l k : value_of l k = None -> forall v, ~ In (k, v) l.
Proof.
  induction l as [|[k' v'] l IH]; cbn; [auto|]. destruct (vopt_eq_dec k k') as [|N]; [discriminate|].
  intros H v [[= -> _]|I]; [now apply N|now apply (IH H v)].
Qed.
Lemma value_unique (l : list (vopt * str)) k v w : notfeat k = true -> NoDup (filter notfeat (map fst l)) -> In (k, v) l -> In (k, w) l -> v = w.
Proof.
  intros NF. induction l as [|[k' v'] l IH]; cbn [map filter fst In]; [contradiction|].
  intros N [E|I] [E'|J].
  - congruence.
  - injection E as -> ->. exfalso. rewrite NF in N. apply NoDup_cons_iff in N as [N _]. apply N, filter_In. split; [|exact NF].
    now apply (in_map fst) in J.
  - injection E' as -> ->. exfalso. rewrite NF in N. apply NoDup_cons_iff in N as [N _]. apply N, filter_In. split; [|exact NF].
    now apply (in_map fst) in I.
  - apply IH; auto. destruct (notfeat k'); [now inversion N|exact N].
Qed.

(** A converted option is the setting of the specification. *)
Lemma conv_setting {A} (items : list item) k (f : str -> option A) (rel : str -> A -> Prop) o :
  (forall s a, f s = Some a <-> rel s a) -> notfeat k = true -> NoDup (filter notfeat (map fst (vals_in items))) ->
  conv f (value_of (rev (vals_in items)) k) = Some o <-> setting items k rel o.
Proof.
  intros F NF N. destruct (value_of (rev (vals_in items)) k) as [v|] eqn:E; cbn [conv].
  - apply value_of_in in E. rewrite <- in_rev in E. pose proof E as E'. apply in_vals in E'. split.
    + destruct (f v) as [a|] eqn:V; [|discriminate]. intros [= <-]. exists v. split; [exact E'|]. now apply F.
    + destruct o as [a|]; cbn [setting].
      * intros (w & I & R). apply in_vals in I. rewrite (value_unique _ k v w NF N E I). apply F in R. now rewrite R.
      * intros H. now destruct (H v).
  - pose proof (value_of_none _ _ E) as M. split.
    + intros [= <-] v I. apply in_vals in I. apply (M v). now rewrite <- in_rev.
    + destruct o as [a|]; cbn [setting]; [|reflexivity]. intros (w & I & _). apply in_vals in I. destruct (M w). now rewrite <- in_rev.
Qed.

Lemma value_setting items k o :
  notfeat k = true -> NoDup (filter notfeat (map fst (vals_in items))) ->
  value_of (rev (vals_in items)) k = o <-> setting items k itself o.
Proof.
  intros NF N. rewrite <- (conv_setting items k (fun s => Some s) itself o); auto.
  - destruct (value_of (rev (vals_in items)) k); cbn [conv]; split; congruence.
  - intros s a. unfold itself. split; congruence.
Qed.

Lemma digits_from s : forall acc n, (acc < 2 ^ 64)%N ->
  digits s acc = Some n <-> Forall is_digit s /\ from acc s = n /\ (n < 2 ^ 64)%N.
Proof.
  induction s as [|c s IH]; intros acc n L.
  - cbn [digits from fold_left]. split; [intros [= <-]; auto|intros (_ & -> & _); reflexivity].
  - cbn [digits]. change (from acc (c :: s)) with (from (10 * acc + digit_value c) s). unfold digit_value.
    destruct ((48 <=? N_of_ascii c)%N && (N_of_ascii c <=? 57)%N) eqn:D.
    + apply andb_true_iff in D as [D1 D2]. apply N.leb_le in D1, D2.
      destruct (10 * acc + (N_of_ascii c - 48) <? 2 ^ 64)%N eqn:B.
      * apply N.ltb_lt in B. rewrite (IH _ n B). split; [intros (F & E); split; [constructor; [split; assumption|exact F]|exact E]|].
        intros (F & E). split; [now inversion F|exact E].
      * apply N.ltb_ge in B. split; [discriminate|]. intros (F & E & U). exfalso.
        assert (M : forall s v, (v <= from v s)%N).
        { clear. intros s. unfold from. induction s as [|c s IH]; intros v; cbn [fold_left]; [lia|].
          specialize (IH (10 * v + digit_value c)%N). lia. }
        specialize (M s (10 * acc + (N_of_ascii c - 48))%N). lia.
    + split; [discriminate|]. intros (F & _). inversion F as [|? ? G _]; subst. destruct G as [G1 G2].
      apply N.leb_le in G1, G2. now rewrite G1, G2 in D.
Qed.

Lemma parse_number s n : parse_u64 s = Some n <-> number s n.
Proof.
  assert (Z : (0 < 2 ^ 64)%N) by lia.
  assert (B : forall ds, match ds with [] => None | _ => digits ds 0 end = Some n <->
     ds <> [] /\ Forall is_digit ds /\ Decimal.value ds = n /\ (n < 2 ^ 64)%N).
  { intros ds. destruct ds as [|c ds]; [split; [discriminate|intros (H & _); now destruct H]|].
    rewrite (digits_from (c :: ds) 0 n Z). split; [intros H; split; [discriminate|exact H]|intros (_ & H); exact H]. }
  unfold number, parse_u64. destruct s as [|c s].
  - cbn beta iota zeta. split; [discriminate|]. intros (ds & [<-|?] & N & _); [now destruct N|discriminate].
  - destruct (ascii_dec c "+") as [->|C].
    + cbn beta iota zeta. rewrite (B s). split.
      * intros H. exists s. auto.
      * intros (ds & [Q|Q] & H); [subst ds|injection Q as <-; exact H]. destruct H as (_ & F & _). inversion F as [|? ? [G _] _]; subst. vm_compute in G. now destruct G.
    + transitivity (match c :: s with [] => None | _ => digits (c :: s) 0 end = Some n).
      * destruct c as [[] [] [] [] [] [] [] []]; try reflexivity. now destruct C.
      * rewrite (B (c :: s)). split; [intros H; exists (c :: s); auto|].
        intros (ds & [Q|Q] & H); [now subst ds|injection Q as Q1 Q2; contradiction].
Qed.

Lemma object_named s x : assoc object_names s = Some x <-> names_object s x.
Proof.
  unfold names_object. split.
  - intros H. apply assoc_in in H. cbn [object_names In] in H.
    repeat (destruct H as [H|H]; [injection H as <- <-; reflexivity|]). contradiction.
  - intros ->. destruct x; reflexivity.
Qed.

Lemma features_vals items : features_in items = map snd (filter (fun kv => if vopt_eq_dec (fst kv) OFeatures then true else false) (vals_in items)).
Proof. induction items as [|[f|[] v|t] items IH]; cbn; congruence. Qed.

Lemma given_iff items f r : r_flags r = rev (flags_in items) -> given r f = true <-> In (IFlag f) items.
Proof.
  intros E. unfold given. rewrite E. rewrite <- in_flags. destruct (in_dec flag_eq_dec f (rev (flags_in items))) as [I|I].
  - rewrite <- in_rev in I. tauto.
  - rewrite <- in_rev in I. split; [discriminate|contradiction].
Qed.

Lemma conv_cpus items (o : option nat) : 
  setting items OCpus number (option_map N.of_nat o) <-> exists c, setting items OCpus number c /\ option_map N.to_nat c = o.
Proof.
  split.
  - intros H. exists (option_map N.of_nat o). split; [exact H|]. destruct o; cbn; [now rewrite Nnat.Nat2N.id|reflexivity].
  - intros (c & H & <-). destruct c; cbn in *; [now rewrite Nnat.N2Nat.id|exact H].
Qed.

Lemma finish_means items zz o :
  finish (set_rest zz (fold_left apply_item items raw0)) = Some o <-> means items zz o.
Proof.
  set (r := set_rest zz (fold_left apply_item items raw0)).
  destruct (fold_raw items raw0) as (RF & RV & RT). rewrite app_nil_r in RF, RV, RT.
  assert (EF : r_flags r = rev (flags_in items)) by exact RF.
  assert (EV : r_vals r = rev (vals_in items)) by exact RV.
  assert (ET : r_targets r = rev (targets_in items)) by exact RT.
  assert (ER : r_rest r = zz) by reflexivity.
  clearbody r. clear RF RV RT.
  assert (SI : single r = true <-> ForallOrdPairs (fun x y => ~ same_thing x y) items).
  { unfold single. rewrite ord_single, !andb_true_iff, !distinct_NoDup, EF, EV, ET, map_rev, filter_rev, !NoDup_rev', rev_length, Nat.leb_le.
    unfold notfeat. tauto. }
  assert (FE : rev (map snd (filter (fun kv => if vopt_eq_dec (fst kv) OFeatures then true else false) (r_vals r))) = features_in items).
  { rewrite EV, filter_rev, map_rev, rev_involutive. symmetry. apply features_vals. }
  assert (G : forall f, given r f = true <-> In (IFlag f) items) by (intros f; now apply given_iff).
  unfold finish. destruct (single r) eqn:SG; [|split; [discriminate|]; intros (N & _); apply SI in N; congruence].
  pose proof (proj1 SI eq_refl) as ORD. pose proof ORD as ORD'. apply ord_single in ORD' as (_ & NV & NT).
  assert (TG : match hd_error (r_targets r) with Some t => In (ITarget t) items | None => forall t, ~ In (ITarget t) items end /\
      forall x, match x with Some t => In (ITarget t) items | None => forall t, ~ In (ITarget t) items end -> x = hd_error (r_targets r)).
  { rewrite ET. destruct (targets_in items) as [|t [|]] eqn:E; [| |cbn in NT; lia]; cbn; split.
    - intros t I. apply in_targets in I. now rewrite E in I.
    - intros [t|] H; [|reflexivity]. apply in_targets in H. now rewrite E in H.
    - apply in_targets. rewrite E. now left.
    - intros [t'|] H; [apply in_targets in H; rewrite E in H; destruct H as [->|[]]; reflexivity|].
      destruct (H t). apply in_targets. rewrite E. now left. }
  rewrite EV in FE |- *.
  assert (O : forall k, notfeat k = true -> forall o, conv (assoc object_names) (value_of (rev (vals_in items)) k) = Some o <-> setting items k names_object o).
  { intros k K x. apply conv_setting; auto. apply object_named. }
  assert (U : forall k, notfeat k = true -> forall o, conv parse_u64 (value_of (rev (vals_in items)) k) = Some o <-> setting items k number o).
  { intros k K x. apply conv_setting; auto. apply parse_number. }
  assert (V : forall k, notfeat k = true -> forall o, value_of (rev (vals_in items)) k = o <-> setting items k itself o).
  { intros k K x. now apply value_setting. }
  pose proof (O OCoverage eq_refl) as O1. pose proof (O ODisplay eq_refl) as O2. pose proof (O OReplay eq_refl) as O3.
  pose proof (U OCpus eq_refl) as U1. pose proof (U OMaxTotalTime eq_refl) as U2. pose proof (U OTimeout eq_refl) as U3.
  pose proof (U OSlice eq_refl) as U4.
  pose proof (V OManifestPath eq_refl) as V1. pose proof (V OPackage eq_refl) as V2. pose proof (V OTest eq_refl) as V3.
  clear O U V EF ET SG SI NV NT.
  destruct (conv (assoc object_names) (value_of (rev (vals_in items)) OCoverage)) as [coverage|];
    [|split; [discriminate|]; intros (_ & _ & C & _); apply O1 in C; discriminate].
  destruct (conv parse_u64 (value_of (rev (vals_in items)) OCpus)) as [cpus|];
    [|split; [discriminate|]; intros (_ & _ & _ & _ & _ & C & _); apply U1 in C; discriminate].
  destruct (conv (assoc object_names) (value_of (rev (vals_in items)) ODisplay)) as [display|];
    [|split; [discriminate|]; intros (_ & _ & _ & C & _); apply O2 in C; discriminate].
  destruct (conv parse_u64 (value_of (rev (vals_in items)) OMaxTotalTime)) as [mtt|];
    [|split; [discriminate|]; intros (_ & _ & _ & _ & _ & _ & C & _); apply U2 in C; discriminate].
  destruct (conv (assoc object_names) (value_of (rev (vals_in items)) OReplay)) as [replay|];
    [|split; [discriminate|]; intros (_ & _ & _ & _ & C & _); apply O3 in C; discriminate].
  destruct (conv parse_u64 (value_of (rev (vals_in items)) OSlice)) as [slice|];
    [|split; [discriminate|]; intros (_ & _ & _ & _ & _ & _ & _ & _ & [C|[C _]] & _); apply U4 in C; discriminate].
  destruct (conv parse_u64 (value_of (rev (vals_in items)) OTimeout)) as [timeout|];
    [|split; [discriminate|]; intros (_ & _ & _ & _ & _ & _ & _ & C & _); apply U3 in C; discriminate].
  split.
  - intros E. injection E as <-. unfold means. cbn -[setting given N.of_nat N.to_nat].
    split; [exact ORD|]. split.
    { intros f b. destruct f; cbn -[given]; intros [= <-]; apply G. }
    split; [now apply O1|]. split; [now apply O2|]. split; [now apply O3|]. split; [apply conv_cpus; exists cpus; split; [now apply U1|reflexivity]|].
    split; [now apply U2|]. split; [now apply U3|]. split.
    { destruct slice as [n|]; [left; now apply U4|right; split; [now apply U4|reflexivity]]. }
    split; [now apply V1|]. split; [now apply V2|]. split; [now apply V3|]. split; [exact FE|]. split; [exact (proj1 TG)|exact ER].
  - intros (_ & F & A1 & A2 & A3 & B1 & B2 & B3 & B4 & C1 & C2 & C3 & D & T & Z).
    apply O1 in A1. apply O2 in A2. apply O3 in A3. apply conv_cpus in B1 as (c & B1 & B1'). apply U1 in B1. apply U2 in B2. apply U3 in B3.
    apply V1 in C1. apply V2 in C2. apply V3 in C3. apply (proj2 TG) in T.
    assert (SL : match slice with Some n => n | None => 1200%N end = o_slice o).
    { destruct B4 as [B4|[B4 ->]]; apply U4 in B4; injection B4 as ->; reflexivity. }
    assert (Q : forall f b, field_of f o = Some b -> given r f = b).
    { intros f b H. apply F in H. specialize (G f). destruct (given r f), b; intuition congruence. }
    injection A1 as A1. injection A2 as A2. injection A3 as A3. injection B1 as ->. injection B2 as B2. injection B3 as B3.
    f_equal. destruct o; cbn -[given] in *. subst.
    repeat match goal with |- context [given r ?f] => rewrite (Q f _ eq_refl) end. rewrite FE. reflexivity.
Qed.

(** The arguments are accepted exactly when they are a way of writing a list of items that
    makes sense, and the options are then what the items mean. *)
Theorem C85_exact prog args o :
  cli (prog :: lit "test-fuzz" :: args) = Some o <-> exists items zz, written items zz args /\ means items zz o.
Proof.
  unfold cli. rewrite str_eqb_refl. split.
  - destruct (read raw0 args) as [r|] eqn:R; [|discriminate]. intros F.
    pose proof (read_inv args raw0 r R eq_refl) as I. cbn [raw0 r_pending] in I. destruct I as (items & zz & W & ->).
    exists items, zz. split; [exact W|]. now apply finish_means.
  - intros (items & zz & W & M). rewrite (read_written items zz args W raw0 eq_refl eq_refl). now apply finish_means.
Qed.
Print Assumptions C85_exact.

(** Any other first argument is refused. *)
Theorem C85_subcommand prog sub args : sub <> lit "test-fuzz" -> cli (prog :: sub :: args) = None.
Proof. intros H. unfold cli. now rewrite (str_eqb_no _ _ H). Qed.
Print Assumptions C85_subcommand.

Lemma means_function items zz o o' : means items zz o -> means items zz o' -> o = o'.
Proof. rewrite <- !finish_means. congruence. Qed.

Lemma same_thing_sym x y : same_thing x y -> same_thing y x.
Proof. destruct x, y; cbn; intuition congruence. Qed.

Lemma ord_perm items items' : Permutation items items' ->
  ForallOrdPairs (fun x y => ~ same_thing x y) items -> ForallOrdPairs (fun x y => ~ same_thing x y) items'.
Proof.
  induction 1 as [|x l l' P IH|x y l|l1 l2 l3 P1 IH1 P2 IH2]; intros H; auto.
  - inversion H; subst. constructor; [|auto]. now apply (Permutation_Forall P).
  - inversion H as [|? ? A B]; subst. inversion B as [|? ? C D]; subst. inversion A as [|? ? E F]; subst.
    constructor; [constructor; [|exact C]|constructor; assumption]. intros S. apply E. now apply same_thing_sym.
Qed.

Lemma setting_perm {A} items items' k (rel : str -> A -> Prop) o :
  Permutation items items' -> setting items k rel o -> setting items' k rel o.
Proof.
  intros P. destruct o as [a|]; cbn.
  - intros (v & I & R). exists v. split; [now apply (Permutation_in _ P)|exact R].
  - intros H v I. apply (H v). now apply (Permutation_in _ (Permutation_sym P)).
Qed.

(** The order does not matter, nor the way of writing, except for the order of the features
    among themselves. *)
Theorem C85_order items items' zz args args' prog o :
  Permutation items items' -> features_in items = features_in items' ->
  written items zz args -> written items' zz args' ->
  cli (prog :: lit "test-fuzz" :: args) = Some o -> cli (prog :: lit "test-fuzz" :: args') = Some o.
Proof.
  intros P F W W' C. apply C85_exact. exists items', zz. split; [exact W'|].
  assert (M : means items zz o).
  { unfold cli in C. rewrite str_eqb_refl, (read_written items zz args W raw0 eq_refl eq_refl) in C. now apply finish_means. }
  destruct M as (M0 & M1 & M2 & M3 & M4 & M5 & M6 & M7 & M8 & M9 & M10 & M11 & M12 & M13 & M14).
  pose proof (Permutation_sym P) as P'.
  split; [now apply (ord_perm items)|]. split.
  { intros f b H. rewrite (M1 f b H). split; apply Permutation_in; assumption. }
  do 6 (split; [eapply setting_perm; eassumption|]). split.
  { destruct M8 as [M8|[M8 E]]; [left|right; split; [|exact E]]; eapply setting_perm; eassumption. }
  do 3 (split; [eapply setting_perm; eassumption|]). split; [congruence|]. split; [|exact M14].
  destruct (o_ztarget o) as [t|]; [now apply (Permutation_in _ P)|]. intros t I. apply (M13 t). now apply (Permutation_in _ P').
Qed.
Print Assumptions C85_order.

(** What follows the first [--] reaches the fuzzer as it is, whatever it looks like. *)
Theorem C85_fuzzer_arguments prog a zz o :
  ~ In (lit "--") a -> cli (prog :: lit "test-fuzz" :: a ++ lit "--" :: zz) = Some o -> o_zzargs o = zz.
Proof.
  intros N C. apply C85_exact in C as (items & zz' & (words & F & A) & M).
  assert (Z : o_zzargs o = zz') by apply M. rewrite Z. clear M Z.
  assert (ND : ~ In (lit "--") (List.concat words)).
  { clear A. induction F as [|x w items words S F IH]; [auto|]. cbn [List.concat]. rewrite in_app_iff. intros [I|I]; [|auto].
    destruct S as [f w I'|k v O|k v|v O|v|v Ne E|t O].
    - destruct (flag_lookup f w I') as (L & _ & _ & Ne). rewrite L in I. destruct I as [I|[]]. injection I as I. exact (Ne I).
    - destruct (option_lookup k) as (L & _ & _ & Ne). rewrite L in I. destruct I as [I|[I|[]]]; [injection I as I; exact (Ne I)|].
      subst v. destruct O as [O|O]; [discriminate|]. exact (O _ eq_refl).
    - destruct (option_lookup k) as (L & _ & _ & Ne). rewrite L in I. destruct I as [I|[]]. injection I as I.
      destruct (tail2 (option_word k)); discriminate.
    - destruct I as [I|[I|[]]]; [discriminate|]. subst v. destruct O as [O|O]; [discriminate|]. exact (O _ eq_refl).
    - destruct I as [I|[]]. discriminate.
    - destruct I as [I|[]]. discriminate.
    - destruct I as [I|[]]. subst t. destruct O as [O|O]; [discriminate|]. exact (O _ eq_refl). }
  destruct A as [[A ->]|A].
  - exfalso. apply ND. rewrite <- A. apply in_elt.
  - revert N ND A. generalize (List.concat words) as c. clear. induction a as [|x a IH]; intros [|y c] N M E.
    + now injection E as ->.
    + injection E as <- _. destruct M. now left.
    + injection E as -> _. destruct N. now left.
    + injection E as <- E. apply (IH c); [| |exact E]; intros I; [apply N|apply M]; now right.
Qed.
Print Assumptions C85_fuzzer_arguments.

(** [--no-instrumentation] is accepted once and has no effect. *)
Theorem C85_no_instrumentation items1 items2 zz o :
  ~ In (IFlag FNoInstrumentation) (items1 ++ items2) ->
  means (items1 ++ items2) zz o -> means (items1 ++ IFlag FNoInstrumentation :: items2) zz o.
Proof.
  intros N (M0 & M1 & M2 & M3 & M4 & M5 & M6 & M7 & M8 & M9 & M10 & M11 & M12 & M13 & M14).
  assert (ST : forall A k (rel : str -> A -> Prop) x, setting (items1 ++ items2) k rel x ->
             setting (items1 ++ IFlag FNoInstrumentation :: items2) k rel x).
  { intros A k rel [a|]; cbn.
    - intros (v & I & R). exists v. split; [|exact R]. rewrite in_app_iff in *. cbn. tauto.
    - intros H v I. apply (H v). rewrite in_app_iff in *. cbn in I. destruct I as [I|[I|I]]; auto. discriminate. }
  split.
  { apply (ord_perm (IFlag FNoInstrumentation :: items1 ++ items2)); [apply Permutation_middle|].
    constructor; [|exact M0]. apply Forall_forall. intros y I S. destruct y; cbn in S; try contradiction. subst. contradiction. }
  split.
  { intros f b H. rewrite (M1 f b H), !in_app_iff. cbn. split; [tauto|]. intros [I|[I|I]]; auto. injection I as <-. discriminate H. }
  do 6 (split; [auto|]). split; [destruct M8 as [M8|[M8 E]]; [left|right; split]; auto|].
  do 3 (split; [auto|]). split.
  { rewrite M12. clear. induction items1 as [|x l IH]; [reflexivity|]. cbn [app features_in]. destruct x as [|[]|]; congruence. }
  split; [|exact M14].
  destruct (o_ztarget o) as [t|]; [rewrite in_app_iff in *; cbn; tauto|].
  intros t I. apply (M13 t). rewrite in_app_iff in *. cbn in I. destruct I as [I|[I|I]]; auto. discriminate.
Qed.
Print Assumptions C85_no_instrumentation.

(** No combination of options is refused by the parser itself: given any choice of flags, there
    are arguments with exactly these. *)
Theorem C85_any_flags (fs : list flag) prog : NoDup fs ->
  exists o, cli (prog :: lit "test-fuzz" :: map (fun f => lit (hd EmptyString (flag_words f))) fs) = Some o /\
    forall f b, field_of f o = Some b -> (b = true <-> In f fs).
Proof.
  intros N. set (items := map IFlag fs).
  assert (W : written items [] (map (fun f => lit (hd EmptyString (flag_words f))) fs)).
  { exists (map (fun f => [lit (hd EmptyString (flag_words f))]) fs). split.
    - unfold items. clear N items. induction fs as [|f fs IH]; cbn [map]; constructor; [|exact IH].
      constructor. destruct f; now left.
    - left. split; [|reflexivity]. clear. induction fs as [|f fs IH]; [reflexivity|]. cbn [map List.concat app]. now rewrite IH at 1. }
  assert (FI : flags_in items = fs) by (unfold items; clear; induction fs; cbn; congruence).
  assert (VI : vals_in items = []) by (unfold items; clear; induction fs; cbn; congruence).
  assert (TI : targets_in items = []) by (unfold items; clear; induction fs; cbn; congruence).
  destruct (finish (set_rest [] (fold_left apply_item items raw0))) as [o|] eqn:E.
  - exists o. pose proof E as M. apply finish_means in M. split.
    + apply C85_exact. exists items, []. auto.
    + intros f b H. destruct M as (_ & M & _). rewrite (M f b H). rewrite <- in_flags, FI. tauto.
  - exfalso. unfold finish in E. destruct (fold_raw items raw0) as (RF & RV & RT).
    assert (S : single (set_rest [] (fold_left apply_item items raw0)) = true).
    { unfold single. cbn [set_rest r_flags r_vals r_targets]. rewrite RF, RV, RT, FI, VI, TI, app_nil_r. cbn.
      rewrite !andb_true_r. apply distinct_NoDup. now apply NoDup_rev. }
    rewrite S in E. cbn [set_rest r_vals] in E. rewrite RV, VI in E. discriminate E.
Qed.
Print Assumptions C85_any_flags.

Definition ex_cli (args : list string) : option opts := cli (map lit ("/usr/bin/cargo-test-fuzz" :: "test-fuzz" :: args)%string).

Local Open Scope string_scope.
Example C85_example :
  (* two ways of writing the same *)
  ex_cli ["target"; "--features"; "a b"; "--cpus=+3"; "--pretty-print"; "-pfoo"; "--features=c"; "--"; "-x"; "--"; "--list"]
  = ex_cli ["--no-instrumentation"; "--package=foo"; "--pretty"; "--features=a b"; "--features"; "c"; "--cpus"; "3"; "target";
            "--"; "-x"; "--"; "--list"] /\
  option_map (fun o => (o_features o, o_cpus o, o_pretty o, o_package o)) (ex_cli ["target"; "--features"; "a b"; "--cpus=+3";
      "--pretty-print"; "-pfoo"; "--features=c"; "--"; "-x"; "--"; "--list"])
  = Some ([lit "a b"; lit "c"]%list, Some 3, true, Some (lit "foo")) /\
  option_map (fun o => (o_ztarget o, o_slice o, o_list o, o_zzargs o)) (ex_cli ["target"; "--cpus=+3"; "--"; "-x"; "--"; "--list"])
  = Some (Some (lit "target"), 1200%N, false, [lit "-x"; lit "--"; lit "--list"]) /\
  ex_cli ["--cpus"; "-1"] = None /\ ex_cli ["--cpus"; "18446744073709551616"] = None /\
  ex_cli ["--display"; "corpora"] = None /\ ex_cli ["--list"; "--list"] = None /\ ex_cli ["a"; "b"] = None /\
  ex_cli ["--display"; "--list"] = None /\
  option_map o_display (ex_cli ["--display"; "corpus-instrumented"]) = Some (Some CorpusInstrumented).
Proof. vm_compute. repeat split. Qed.
