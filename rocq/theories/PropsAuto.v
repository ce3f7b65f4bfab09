(** C36-C39: auto-generated corpus entries. *)
From Coq Require Import String List Ascii Bool Arith NArith ZArith Lia.
From stdpp Require Import gmap strings.
From Verif Require Import Base Utf8 Lossy Env Dirs Opts Sha1 Fs Write FuzzCmd Auto AutoGen CommandText.
Import ListNotations.
Local Open Scope nat_scope.

(** C36: if every argument has a value, every value of every argument occurs in some
    entry at that argument's place. *)
Theorem C36_every_value_used :
  forall (V : Type) (autos : list (list V)),
    ~ In [] autos ->
    exists es, args_from_autos autos = Ret es /\
      forall k a v, nth_error autos k = Some a -> In v a ->
        exists e, In e es /\ nth_error e k = Some v.
Proof.
  intros V autos N. destruct (args_from_autos_ok autos) as (es & E & L & F).
  exists es. split; [exact E|]. intros k a v A I.
  apply In_nth_error in I as [j J].
  assert (Lj : (j < List.length a)%nat) by (apply nth_error_Some; congruence).
  destruct (shift_mod (List.length a) k j Lj) as (i & Li & Mi).
  assert (Ia : In a autos) by (eapply nth_error_In; eauto).
  assert (Ne : autos <> []) by (intros ->; destruct Ia).
  destruct (auto_max_pos autos Ne N) as [_ B]. specialize (B a Ia).
  destruct (nth_error es i) as [e|] eqn:Ei.
  - exists e. split; [eapply nth_error_In; eauto|].
    destruct (auto_fields_ok i autos 0 N) as (vs & Ev & _ & H).
    rewrite (F i e Ei) in Ev. injection Ev as <-. rewrite (H k a A). cbn [Nat.add]. now rewrite Mi.
  - apply nth_error_None in Ei. lia.
Qed.
Print Assumptions C36_every_value_used.

(** C36: entries are made of generated values only, one per argument. *)
Theorem C36_only_generated_values :
  forall (V : Type) (autos : list (list V)) es e,
    args_from_autos autos = Ret es -> In e es -> Forall2 (fun a v => In v a) autos e.
Proof.
  intros V autos es e E I. destruct (args_from_autos_ok autos) as (es' & E' & L & F).
  rewrite E in E'. injection E' as <-. apply In_nth_error in I as [i Ei].
  assert (N : ~ In [] autos).
  { intros K. rewrite (auto_max_zero autos K) in L. apply length_zero_iff_nil in L. subst es. destruct i; discriminate. }
  destruct (auto_fields_ok i autos 0 N) as (vs & Ev & Lv & H). rewrite (F i e Ei) in Ev. injection Ev as <-.
  clear - Lv H. revert e Lv H. generalize 0%nat as k.
  induction autos as [|a autos IH]; intros k [|v e] Lv H; try discriminate; constructor.
  - specialize (H 0%nat a eq_refl). cbn [nth_error] in H. symmetry in H. eapply nth_error_In; eauto.
  - apply (IH (S k)); [now injection Lv|]. intros j b Hb. specialize (H (S j) b Hb).
    cbn [nth_error] in H. rewrite H. f_equal. f_equal. lia.
Qed.
Print Assumptions C36_only_generated_values.

Example C36_example :
  args_from_autos [[1; 2; 3]; [4; 5]; [6]] = Ret [[1; 5; 6]; [2; 4; 6]; [3; 5; 6]].
Proof. reflexivity. Qed.

(** C37: the number of entries, for every list of value lists; no index is out of
    bounds and there is no division by zero (the result is never a panic). *)
Theorem C37_count_exact :
  forall (V : Type) (autos : list (list V)),
    exists es, args_from_autos autos = Ret es /\
      ((autos = [] /\ List.length es = 1%nat) \/
       (In [] autos /\ List.length es = 0%nat) \/
       (autos <> [] /\ ~ In [] autos /\
        (exists a, In a autos /\ List.length es = List.length a) /\
        (forall a, In a autos -> List.length a <= List.length es))).
Proof.
  intros V autos. destruct (args_from_autos_ok autos) as (es & E & L & _). exists es. split; [exact E|].
  destruct autos as [|a0 autos]; [left; auto|].
  assert (D : In [] (a0 :: autos) \/ ~ In [] (a0 :: autos)).
  { generalize (a0 :: autos). clear. induction l as [|a l [IH|IH]]; [now right; intros []|left; now right|].
    destruct a; [left; now left|]. right. intros [K|K]; [discriminate|contradiction]. }
  destruct D as [D|D].
  - right; left. split; [exact D|]. rewrite L. now apply auto_max_zero.
  - right; right. split; [discriminate|]. split; [exact D|].
    destruct (auto_max_pos (a0 :: autos) ltac:(discriminate) D) as [A B]. rewrite L. split; [exact A|].
    intros a I. apply B, I.
Qed.
Print Assumptions C37_count_exact.

Example C37_example :
  args_from_autos [[1; 2]; []] = Ret [] /\ args_from_autos (V := nat) [] = Ret [[]] /\
  (exists es, args_from_autos [[1; 2]; [3; 4; 5; 6; 7]; [8]] = Ret es /\ List.length es = 5%nat).
Proof. repeat split; try reflexivity. eexists. split; reflexivity. Qed.

(** C38: for every integer type of at least three bits the generated values are those
    of the documentation; nothing overflows. *)
Theorem C38_values :
  forall t : ity, (3 <= it_bits t)%Z ->
    let mid := if it_signed t then (-1)%Z else (2 ^ (it_bits t - 1) - 1)%Z in
    auto_int t = Ret [it_min t; it_max t; 0; it_max t - 1; mid; mid + 1; it_min t + 1]%Z.
Proof.
  intros t H mid. unfold auto_int.
  destruct (pow2_split _ H) as (P1 & P2 & P3).
  unfold max_value_sub_one, it_sub. rewrite checked_ok; [|unfold in_type, it_min, it_max; destruct (it_signed t); lia].
  cbn [bind]. rewrite low_eq by exact H. cbn [bind]. rewrite high_eq by exact H. cbn [bind].
  unfold min_value_add_one, it_add. rewrite checked_ok; [|unfold in_type, it_min, it_max; destruct (it_signed t); lia].
  cbn [bind]. unfold mid. destruct (it_signed t); [reflexivity|].
  replace (2 ^ (it_bits t - 1) - 1 + 1)%Z with (2 ^ (it_bits t - 1))%Z by lia. reflexivity.
Qed.
Print Assumptions C38_values.

(** C38: all of them are in range, and the two middle values are adjacent and split
    the range into halves. *)
Theorem C38_in_range_and_middle :
  forall t : ity, (3 <= it_bits t)%Z ->
    exists vs l h, auto_int t = Ret vs /\ Forall (in_type t) vs /\
      low t = Ret l /\ high t = Ret h /\ In l vs /\ In h vs /\
      (h = l + 1)%Z /\ (l - it_min t = it_max t - h)%Z.
Proof.
  intros t H. destruct (pow2_split _ H) as (P1 & P2 & P3).
  eexists _, _, _. split; [apply C38_values, H|]. split.
  - unfold in_type, it_min, it_max. destruct (it_signed t); repeat constructor; lia.
  - split; [apply low_eq, H|]. split; [apply high_eq, H|]. cbn [In].
    unfold it_min, it_max. destruct (it_signed t); repeat split; try lia; tauto || auto 20.
Qed.
Print Assumptions C38_in_range_and_middle.

Example C38_example :
  auto_int {| it_signed := false; it_bits := 8 |} = Ret [0; 255; 0; 254; 127; 128; 1]%Z /\
  auto_int {| it_signed := true; it_bits := 8 |} = Ret [-128; 127; 0; 126; -1; 0; -127]%Z.
Proof. split; reflexivity. Qed.

(** C39: generation is attempted exactly for the targets without a corpus directory,
    for all of them in order, whatever fails.  [fate] tells how each attempt ended: with a
    corpus ([None]), with a successful process but no corpus ([Some true]), or with a failed process
    ([Some false]).  Fuzzing proceeds exactly if no attempt failed, and then every target has a
    corpus directory; otherwise the error has one line for each failure.  Each attempt and each
    corpus obtained is announced. *)
Theorem C39_all_attempted :
  forall (td : path) (id : option str) (g : generator) (m : fs) (l : list (exe * str)),
    well_behaved td id g -> NoDup (map (corpus_dir td id) l) ->
    let shown xt := lit "`" ++ lossy (path_text (corpus_dir td id xt)) ++ lit "`" in
    let missing := List.filter (fun xt => negb (exists_ m (corpus_dir td id xt))) l in
    exists m' r notes (fate : list (option bool)),
      auto_generate_corpora td id g m l = (m', missing, notes, r) /\
      Forall2 (fun xt f => match f with
                           | None => exists_ m' (corpus_dir td id xt) = true /\ exists mk, snd (g mk (fst xt) (snd xt)) = true
                           | Some true => exists_ m' (corpus_dir td id xt) = false /\ exists mk, snd (g mk (fst xt) (snd xt)) = true
                           | Some false => exists mk, snd (g mk (fst xt) (snd xt)) = false
                           end) missing fate /\
      notes = List.concat (map (fun p => (lit "Could not find " ++ shown (fst p) ++ lit ". Trying to auto-generate it...") ::
                                         match snd p with None => [lit "Auto-generated " ++ shown (fst p) ++ lit "."] | Some _ => [] end)
                               (combine missing fate)) /\
      (let errors := List.concat (map (fun p => match snd p with
                                                | None => []
                                                | Some true => [lit "Could not find or auto-generate " ++ shown (fst p) ++ lit ". Please ensure `" ++ snd (fst p) ++ lit "` is tested."]
                                                | Some false => [lit "Command failed: " ++ words_text (x_path (fst (fst p))) [lit "--exact"; snd (fst p) ++ lit "_fuzz__::auto_generate"]]
                                                end) (combine missing fate)) in
       (errors = [] /\ r = Ret tt) \/ (errors <> [] /\ r = Err ([LF] ++ join [LF] errors))) /\
      (forall xt, In xt l -> exists_ m (corpus_dir td id xt) = true -> exists_ m' (corpus_dir td id xt) = true) /\
      (r = Ret tt -> forall xt, In xt l -> exists_ m' (corpus_dir td id xt) = true).
Proof.
  intros td id g m l W ND shown missing. unfold auto_generate_corpora.
  destruct (autogen_loop td id g m l) as [[[m' att] notes] errs] eqn:E.
  destruct (autogen_spec td id g W l m m' att notes errs ND E) as (A & B & C & lost & D1 & -> & ->). fold missing in A. subst att.
  set (fate := map (option_map fst) lost). eexists m', _, _, fate. split; [reflexivity|].
  assert (F : Forall2 (fun xt f => match f with
                           | None => exists_ m' (corpus_dir td id xt) = true /\ exists mk, snd (g mk (fst xt) (snd xt)) = true
                           | Some true => exists_ m' (corpus_dir td id xt) = false /\ exists mk, snd (g mk (fst xt) (snd xt)) = true
                           | Some false => exists mk, snd (g mk (fst xt) (snd xt)) = false
                           end) missing fate).
  { clear - D1. subst fate. clearbody missing; induction D1 as [|xt k l0 ls H _ IH]; [constructor|]. cbn [map]. constructor; [|exact IH].
    destruct k as [[[|] e]|]; cbn [option_map fst]; [|destruct H as (H & _ & _); exact H|exact H]. destruct H as (H1 & _ & H2). split; [now apply H2|exact H1]. }
  split; [exact F|].
  assert (N : List.concat (map (fun p => trying (corpus_dir td id (fst p)) ::
                                        match snd p with Some _ => [] | None => [generated (corpus_dir td id (fst p))] end) (combine missing lost))
            = List.concat (map (fun p => (lit "Could not find " ++ shown (fst p) ++ lit ". Trying to auto-generate it...") ::
                                         match snd p with None => [lit "Auto-generated " ++ shown (fst p) ++ lit "."] | Some _ => [] end)
                               (combine missing fate))).
  { clear - D1. subst fate. clearbody missing; induction D1 as [|xt k l0 ls H _ IH]; [reflexivity|]. cbn [map combine List.concat]. rewrite IH. f_equal.
    unfold trying, generated, shown. cbn [fst snd]. destruct k; cbn [option_map]; rewrite <- !app_assoc; reflexivity. }
  split; [exact N|].
  set (errors := List.concat (map (fun p => match snd p with
                                                | None => []
                                                | Some true => [lit "Could not find or auto-generate " ++ shown (fst p) ++ lit ". Please ensure `" ++ snd (fst p) ++ lit "` is tested."]
                                                | Some false => [lit "Command failed: " ++ words_text (x_path (fst (fst p))) [lit "--exact"; snd (fst p) ++ lit "_fuzz__::auto_generate"]]
                                                end) (combine missing fate))).
  set (errs := List.concat (map (fun p => match snd p with Some k => [(fst p, k)] | None => [] end) (combine missing lost))).
  assert (R : map (fun e => snd (snd e)) errs = errors).
  { subst fate errors errs. clear - D1. clearbody missing; induction D1 as [|xt k l0 ls H _ IH]; [reflexivity|]. cbn [map combine List.concat]. rewrite map_app, IH. f_equal.
    destruct k as [[[|] e]|]; cbn [option_map fst snd map]; [| |reflexivity]; destruct H as (_ & -> & _); unfold gen_error, shown; cbn [snd]; rewrite <- ?app_assoc; reflexivity. }
  split; [|split; [intros xt _; apply B|]].
  - cbv zeta. rewrite <- R. destruct errs as [|e errs']; [left; split; reflexivity|right; split; [discriminate|reflexivity]].
  - intros Z xt I. destruct (exists_ m (corpus_dir td id xt)) eqn:X; [now apply B|].
    assert (K : In xt missing) by (apply filter_In; split; [exact I|now rewrite X]).
    assert (Z' : errs = []) by (destruct errs; [reflexivity|discriminate]). clear - D1 K Z'. subst errs.
    clearbody missing; induction D1 as [|yt k l0 ls H _ IH]; [destruct K|]. cbn [combine map List.concat snd fst] in Z'. apply app_eq_nil in Z' as [Z1 Z2].
    destruct k; [discriminate|]. destruct K as [->|K]; [apply H|now apply IH].
Qed.
Print Assumptions C39_all_attempted.

(** A character that is shown as it is. *)
Definition plain_char (c : ascii) : Prop := (32 <= N_of_ascii c <= 126)%N /\ ~ In c (lit "'""\").

(** How a byte is shown: itself, with a backslash, or by its two hexadecimal digits. *)
Inductive shown_byte : ascii -> str -> Prop :=
| sb_plain c : plain_char c -> shown_byte c [c]
| sb_quote c : In c (lit "'""\") -> shown_byte c ["\"%char; c]
| sb_named c d : In (N_of_ascii c, d) [(9%N, "t"%char); (10%N, "n"%char); (13%N, "r"%char)] -> shown_byte c ["\"%char; d]
| sb_hex c h l i j : (N_of_ascii c < 32 \/ 126 < N_of_ascii c)%N -> ~ In (N_of_ascii c) [9; 10; 13]%N ->
    nth_error (lit "0123456789abcdef") i = Some h -> nth_error (lit "0123456789abcdef") j = Some l ->
    N_of_ascii c = N.of_nat (16 * i + j) -> shown_byte c ["\"%char; "x"%char; h; l].

(** C39: every word of the command is shown byte by byte, in quotation marks. *)
Theorem C39_words_shown :
  forall (w : bytes), exists l, Forall2 shown_byte w l /\ quoted w = lit """" ++ List.concat l ++ lit """".
Proof.
  assert (A : forall c, shown_byte c (escape_byte c)).
  { intros c. pose proof (N_ascii_bounded c) as B. unfold escape_byte. destruct (N.eqb_spec (N_of_ascii c) 9) as [E|E1].
    { apply sb_named. rewrite E. cbn. auto. }
    destruct (N.eqb_spec (N_of_ascii c) 13) as [E|E2]; [apply sb_named; rewrite E; cbn; auto|].
    destruct (N.eqb_spec (N_of_ascii c) 10) as [E|E3]; [apply sb_named; rewrite E; cbn; auto|].
    assert (K : forall k, N_of_ascii c = k -> c = ascii_of_N k) by (intros k <-; symmetry; apply ascii_N_embedding).
    destruct (N.eqb_spec (N_of_ascii c) 39) as [E|E4]; [apply K in E; subst c; apply (sb_quote "'"%char); cbn; auto|].
    destruct (N.eqb_spec (N_of_ascii c) 34) as [E|E5]; [apply K in E; subst c; apply (sb_quote (ascii_of_N 34)); cbn; auto|].
    destruct (N.eqb_spec (N_of_ascii c) 92) as [E|E6]; [apply K in E; subst c; apply (sb_quote "\"%char); cbn; auto|]. cbn [orb].
    destruct (N.leb_spec 32 (N_of_ascii c)) as [L|L]; cbn [andb]; [destruct (N.leb_spec (N_of_ascii c) 126) as [U|U]|].
    1: { apply sb_plain. split; [lia|]. intros [H|[H|[H|[]]]]; subst c; first [apply E4; reflexivity|apply E5; reflexivity|apply E6; reflexivity]. }
    all: pose proof (N.div_mod (N_of_ascii c) 16 ltac:(lia)) as D; pose proof (N.mod_lt (N_of_ascii c) 16 ltac:(lia)) as M.
    all: assert (Q : (N_of_ascii c / 16 < 16)%N) by (apply N.div_lt_upper_bound; lia).
    all: assert (X : forall d, (d < 16)%N -> nth_error (lit "0123456789abcdef") (N.to_nat d) = Some (hex_digit d)).
    1, 3: (intros d Hd; assert (T : forallb (fun i => match nth_error (lit "0123456789abcdef") i with Some a => Ascii.eqb a (hex_digit (N.of_nat i)) | None => false end) (seq 0 16) = true)
           by (vm_compute; reflexivity);
       rewrite forallb_forall in T; specialize (T (N.to_nat d)); rewrite N2Nat.id in T; 
       destruct (nth_error (lit "0123456789abcdef") (N.to_nat d)) as [a|]; [f_equal; apply Ascii.eqb_eq; apply T; apply in_seq; lia|
         discriminate T; apply in_seq; lia]).
    all: apply (sb_hex _ _ _ _ _) with (3 := X _ Q) (4 := X _ M); [lia|intros [H|[H|[H|[]]]]; congruence|lia]. }
  intros w. exists (map escape_byte w). split; [induction w; constructor; auto|]. unfold quoted. rewrite flat_map_concat_map. reflexivity.
Qed.
Print Assumptions C39_words_shown.

(** C39: how the failed command is shown: each of its words in quotation marks, and unusual
    characters in an unambiguous way, so that the line tells the executable and the target. *)
Theorem C39_error_identifies :
  (forall p args, Forall (Forall plain_char) (p :: args) ->
     words_text p args = join (lit " ") (map (fun w => lit """" ++ w ++ lit """") (p :: args))) /\
  (forall x t y u, words_text (x_path x) (auto_generate_args t) = words_text (x_path y) (auto_generate_args u) -> x_path x = x_path y /\ t = u).
Proof.
  split.
  - intros p args F. unfold words_text. change (lit " ") with [" "%char]. f_equal. apply map_ext_in. intros w I. rewrite List.Forall_forall in F. specialize (F w I).
    unfold quoted. change (lit """") with [dquote]. cbn [app]. f_equal. f_equal. clear - F. induction F as [|c w (R & N) _ IH]; [reflexivity|]. cbn [flat_map].
    rewrite IH. change (c :: w) with ([c] ++ w). f_equal. unfold escape_byte.
    assert (M : forall k, In (ascii_of_N k) (lit "'""\") -> (N_of_ascii c =? k)%N = false).
    { intros k D. apply N.eqb_neq. intros K. apply N. rewrite <- (ascii_N_embedding c), K. exact D. }
    rewrite (M 39%N), (M 34%N), (M 92%N) by (cbn; auto).
    destruct (N.eqb_spec (N_of_ascii c) 9); [lia|]. destruct (N.eqb_spec (N_of_ascii c) 13); [lia|]. destruct (N.eqb_spec (N_of_ascii c) 10); [lia|].
    destruct (N.leb_spec 32 (N_of_ascii c)); [|lia]. destruct (N.leb_spec (N_of_ascii c) 126); [reflexivity|lia].
  - intros x t y u E. apply words_text_inj in E as (-> & E). split; [reflexivity|]. unfold auto_generate_args in E. injection E as E. now apply app_inv_tail in E.
Qed.
Print Assumptions C39_error_identifies.

(** C39: nothing is attempted, and fuzzing proceeds, if every corpus exists. *)
Theorem C39_nothing_to_do :
  forall td id (g : generator) (m : fs) l,
    (forall xt, In xt l -> exists_ m (corpus_dir td id xt) = true) ->
    auto_generate_corpora td id g m l = (m, [], [], Ret tt).
Proof.
  intros td id g m l H. unfold auto_generate_corpora.
  assert (E : autogen_loop td id g m l = (m, [], [], [])); [|now rewrite E].
  induction l as [|[x t] l IH]; [reflexivity|]. rewrite autogen_cons. cbv zeta.
  rewrite (H (x, t) (or_introl eq_refl)). apply IH. intros; apply H; now right.
Qed.
Print Assumptions C39_nothing_to_do.

(** C39: the process runs exactly the test [auto_generate] of the module whose test
    [entry] makes the target known. *)
Theorem C39_test_selected :
  forall (m target : str),
    m ++ lit "::entry" = target ++ lit "_fuzz__::entry" ->
    auto_generate_args target = [lit "--exact"; m ++ lit "::auto_generate"].
Proof.
  intros m t E. unfold auto_generate_args, auto_generated_suffix.
  change (lit "_fuzz__::entry") with (lit "_fuzz__" ++ lit "::entry") in E. rewrite app_assoc in E.
  apply app_inv_tail in E as ->. rewrite <- app_assoc. reflexivity.
Qed.
Print Assumptions C39_test_selected.

(** C39: what the generated test writes: outside of fuzzing, the encoding of every
    entry, and nothing else; it succeeds if the corpus directory is usable. *)
Theorem C39_generated_corpus :
  forall (V : Type) (e : env) (enc : list V -> bytes) (d : path) (autos : list (list V)) (m : fs),
    test_fuzz_enabled e = false -> usable m d ->
    exists es, args_from_autos autos = Ret es /\
      auto_generate e enc d autos m = (record_all m (map (fun a => (d, enc a)) es), true).
Proof.
  intros V e enc d autos m T U. destruct (args_from_autos_ok autos) as (es & E & _). exists es. split; [exact E|].
  unfold auto_generate. rewrite T, E. clear E.
  revert m U. induction es as [|a es IH]; intros m U; [reflexivity|]. cbn [map record_all].
  destruct (write_data_ok m d (enc a) U) as (Ok & _). destruct (write_data m d (enc a)) as [m1 ok] eqn:W.
  cbn [fst snd] in *. subst ok. apply IH.
  assert (K : m1 = (write_data m d (enc a)).1) by now rewrite W.
  rewrite K. apply usable_write; [exact U| |].
  - intros (q & Q). apply (f_equal (@List.length _)) in Q. rewrite !app_length in Q. cbn [List.length] in Q. lia.
  - intros y (q & Q). apply (f_equal (@List.length _)) in Q. rewrite !app_length in Q. cbn [List.length] in Q. lia.
Qed.
Print Assumptions C39_generated_corpus.

(** C39: with TEST_FUZZ set in the environment of cargo test-fuzz (which the
    generating process inherits, cargo-test-fuzz/src/lib.rs:1516) nothing is ever
    generated: the attempt succeeds but leaves no corpus, so fuzzing is refused. *)
Theorem C39_inherited_variable_refuted :
  exists (parent : list (bytes * bytes)) (td : path) (m : fs) (x : exe) (t : str),
    let e := command_env (opts_command [] (x_path x) (auto_generate_args t)) (lookup_last parent) in
    let g : generator := fun m x t => auto_generate e (fun vs : list bool => []) (corpus_dir td None (x, t)) [[true; false]] m in
    usable m (corpus_dir td None (x, t)) /\
    snd (g m x t) = true /\
    exists m' notes,
      auto_generate_corpora td None g m [(x, t)] = (m', [(x, t)], notes, Err ([LF] ++ lit "Could not find or auto-generate `/t/corpus/k::f`. Please ensure `f` is tested.")).
Proof.
  exists [(lit "TEST_FUZZ", lit "1")], [lit "t"], ∅, {| x_path := lit "/e"; x_name := lit "k" |}, (lit "f").
  cbv zeta. split; [|split].
  - split; [intros q b _ H; rewrite lookup_empty in H; discriminate|intros y H; rewrite lookup_empty in H; discriminate].
  - vm_compute. reflexivity.
  - eexists _, _. vm_compute. reflexivity.
Qed.
Print Assumptions C39_inherited_variable_refuted.

(** Two targets, one with a corpus; the generator creates the missing directory. *)
Definition ex_gen : generator := fun m x t => ((create_dir_all m (corpus_dir [lit "t"] None (x, t))).1, true).
Definition ex_k : exe := {| x_path := lit "/e"; x_name := lit "k" |}.
Definition ex_corpora : fs := (create_dir_all ∅ (corpus_dir [lit "t"] None (ex_k, lit "a"))).1.

Example C39_example :
  NoDup (map (corpus_dir [lit "t"] None) [(ex_k, lit "a"); (ex_k, lit "b")]) /\
  (let '(m', att, notes, r) := auto_generate_corpora [lit "t"] None ex_gen ex_corpora [(ex_k, lit "a"); (ex_k, lit "b")] in
   att = [(ex_k, lit "b")] /\ r = Ret tt /\ exists_ m' (corpus_dir [lit "t"] None (ex_k, lit "b")) = true) /\
  (let '(m', att, notes, r) := auto_generate_corpora [lit "t"] None (fun m _ _ => (m, false)) ex_corpora
                          [(ex_k, lit "b"); (ex_k, lit "a"); (ex_k, lit "c")] in
   att = [(ex_k, lit "b"); (ex_k, lit "c")] /\ notes = [lit "Could not find `/t/corpus/k::b`. Trying to auto-generate it..."; lit "Could not find `/t/corpus/k::c`. Trying to auto-generate it..."] /\
   r = Err ([LF] ++ lit "Command failed: ""/e"" ""--exact"" ""b_fuzz__::auto_generate""" ++ [LF] ++ lit "Command failed: ""/e"" ""--exact"" ""c_fuzz__::auto_generate""")) /\
  words_text (lit "/my ""e") [lit "--exact"] = lit """/my \""e"" ""--exact""" /\
  words_text [ascii_of_N 195; ascii_of_N 169; ascii_of_N 9] [] = lit """\xc3\xa9\t""".
Proof.
  split; [|vm_compute; auto]. apply NoDup_cons; split; [|apply NoDup_singleton].
  rewrite elem_of_list_singleton. vm_compute. discriminate.
Qed.
