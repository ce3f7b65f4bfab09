(** C19: a call recorded during `cargo test` is exactly what the harness later makes of
    the recorded file. *)
From Coq Require Import List Ascii String Bool Arith NArith Lia.
From stdpp Require Import gmap.
From Verif Require Import Base Utf8 Env Opts Sha1 Dirs Fs Write Harness Targets Entries PropsHarness PropsEntries EndToEnd.
From Verif Require Syntax MacroArgs PropsMacroArgs Serde Postcard PropsSerde Consolidate.
Import ListNotations.
Local Open Scope nat_scope.

(** * Specification *)

(** A stored value survives serialisation: its implementations agree with each other and
    no string in it exceeds the buffer of the deserialiser (see C14). *)
Definition survives (i : impls) (env : nat -> Serde.ty) (r : M.mapped_arg) (v : M.val) : Prop :=
  Serde.wt env (i_shape i r) (i_to i r v) /\ List.Forall PropsSerde.short (PropsSerde.strings (i_to i r v)) /\
  i_from i r (i_to i r v) = Some v.

(** The values computed for the fields of [Args] in the function, and the arguments the
    harness rebuilds from the fields. *)
Definition fields_of (w : M.world) (vars : str -> option (M.ty * M.val)) (rs : list M.mapped_arg) (stored : list M.val) : Prop :=
  List.Forall2 (fun r v => M.ev w vars (fun _ => None) (PropsMacroArgs.ser r) (M.sem (PropsMacroArgs.stored_type r)) v) rs stored.
Definition rebuilt (w : M.world) (rs : list M.mapped_arg) (stored args : list M.val) : Prop :=
  List.Forall2 (fun r v => M.ev w (fun _ => None) (PropsMacroArgs.record rs stored) (PropsMacroArgs.de r) (M.sem (M.m_type r)) v) rs args.

(** [x] occurs exactly once. *)
Definition once_in {A} (x : A) (l : list A) : Prop := exists a b, l = a ++ x :: b /\ ~ In x a /\ ~ In x b.

(** The harness of a target: decodes with [args_decode], calls [tgt] with the rebuilt arguments. *)
Definition harness_of {R} (w : M.world) (z : bool) (env : nat -> Serde.ty) (fuel : nat) (i : impls) (rs : list M.mapped_arg)
    (phantoms : nat) (tgt : list M.val -> option R) (u : user (list M.val) R) : Prop :=
  (forall data, u_decode u data = args_decode z env fuel i rs phantoms data) /\
  (forall a args, rebuilt w rs a args -> u_target u a = tgt args).

(** * Proofs *)

Lemma forall2_repeat {A B} (P : A -> B -> Prop) a b n : P a b -> List.Forall2 P (repeat a n) (repeat b n).
Proof. intros H. induction n; constructor; auto. Qed.

Lemma args_wt i env rs stored phantoms :
  List.Forall2 (survives i env) rs stored -> Serde.wt env (args_shape i rs phantoms) (args_value i rs phantoms stored).
Proof.
  intros F. constructor. apply List.Forall2_app; [|apply forall2_repeat; constructor].
  induction F as [|r v rs stored (W & _) F IH]; constructor; auto.
Qed.

Lemma args_short i env rs stored phantoms :
  List.Forall2 (survives i env) rs stored -> List.Forall PropsSerde.short (PropsSerde.strings (args_value i rs phantoms stored)).
Proof.
  intros F. cbn [args_value PropsSerde.strings]. rewrite map_app, concat_app. apply List.Forall_app. split.
  - induction F as [|r v rs stored (_ & S & _) F IH]; [constructor|]. cbn [field_values map List.concat]. apply List.Forall_app. auto.
  - induction phantoms; [constructor|exact IHphantoms].
Qed.

Lemma fields_from_to i env rs stored rest :
  List.Forall2 (survives i env) rs stored -> fields_from i rs (field_values i rs stored ++ rest) = Some stored.
Proof.
  induction 1 as [|r v rs stored (_ & _ & E) F IH]; cbn [fields_from field_values app]; [reflexivity|]. now rewrite E, IH.
Qed.

Lemma args_decode_data z i env rs n stored :
  List.Forall2 (survives i env) rs stored ->
  exists fuel, forall g, fuel <= g -> args_decode z env g i rs n (args_data z i rs n stored) = Decoded stored.
Proof.
  intros F. destruct (PropsSerde.C14_round_trip z env _ _ [] (args_wt i env rs stored n F) (args_short i env rs stored n F)) as (f & D).
  exists f. intros g G. unfold args_decode, args_data. specialize (D g G). rewrite app_nil_r in D. rewrite D.
  cbn [args_value]. now rewrite (fields_from_to i env rs stored _ F).
Qed.

Lemma once_in_nodup {A} (x : A) l : List.NoDup l -> In x l -> once_in x l.
Proof.
  intros N I. apply in_split in I as (a & b & ->). exists a, b. split; [reflexivity|]. apply List.NoDup_remove_2 in N.
  split; intros K; apply N; apply in_or_app; auto.
Qed.

Lemma target_dirs_apart td id k k' krate target d d' y :
  k <> Output -> k' <> Output ->
  dir_from_target td id k krate target = Ret d -> dir_from_target td id k' krate target = Ret d' -> ~ under (d ++ [y]) d'.
Proof.
  intros N N'. rewrite !dir_from_target_eq. intros [= <-] [= <-] (q & E). apply (f_equal (@List.length _)) in E.
  destruct k, k'; try contradiction; cbn [kind_prefix] in E; rewrite !app_length in E; cbn [List.length] in E; lia.
Qed.

(** C19: with `cargo test`, a call of an instrumented function first records, then behaves
    as the original; the recorded file is in the directory that cargo-test-fuzz will use. *)
Theorem C19_recorded :
  forall (R : Type) w tp self opts draws l rs vars vals z i n td id krate c target rest_g rest_a
         inames names (f : fopts) (e : env) (body : list M.val -> fs -> fs * option R) (m : fs),
    M.expand_args tp self opts draws l = Ret rs -> List.NoDup (map M.m_ident rs) ->
    List.Forall2 (PropsMacroArgs.whole w tp self (PropsMacroArgs.conversion opts) vars) l vals ->
    f_only_generic_args f = false -> ~ switched_on e (lit "TEST_FUZZ") ->
    crate_of krate c -> ~ occurs (lit "_fuzz__") (c ++ lit "::" ++ target ++ lit "_fuzz_") ->
    (forall k d, k <> Output -> dir_from_target td id k krate target = Ret d -> usable m d) ->
    exists stored d m1,
      let data := args_data z i rs n stored in
      fields_of w vars rs stored /\ rebuilt w rs stored vals /\
      dir_from_target td id Corpus krate target = Ret d /\
      instrumented (record_fs td id (args_type_name c target rest_g) (args_type_name c target rest_a) (fun _ => data))
        body inames names true f e vals m = body vals m1 /\
      fs_read m1 (d ++ [corpus_name data]) = Some data.
Proof.
  intros R w tp self opts draws l rs vars vals z i n td id krate c target rg ra inames names f e body m E ND W OG T Cr Oc Us.
  destruct (PropsMacroArgs.C20_call w tp self opts draws l rs vars vals E ND W) as (_ & stored & F & B).
  set (data := args_data z i rs n stored).
  assert (D : forall k, exists d, dir_from_target td id k krate target = Ret d) by (intros k; rewrite dir_from_target_eq; eauto).
  destruct (D ImplGenericArgs) as (d1 & D1), (D GenericArgs) as (d2 & D2), (D Corpus) as (d & D3). clear D.
  set (x1 := join (lit ", ") inames). set (x2 := join (lit ", ") names).
  pose proof (Us ImplGenericArgs d1 ltac:(discriminate) D1) as U1. pose proof (Us GenericArgs d2 ltac:(discriminate) D2) as U2. pose proof (Us Corpus d ltac:(discriminate) D3) as U3.
  assert (Ap : forall k k' a a' y, k <> Output -> k' <> Output -> dir_from_target td id k krate target = Ret a ->
             dir_from_target td id k' krate target = Ret a' -> ~ under (a ++ [y]) a') by (intros k k' a a' y N N' A A'; exact (target_dirs_apart _ _ _ _ _ _ _ _ y N N' A A')).
  destruct (write_data_ok m d1 x1 U1) as (S1 & _).
  set (m1 := (write_data m d1 x1).1) in *.
  assert (U2' : usable m1 d2) by (apply usable_write; [exact U2|eapply Ap; eauto; discriminate|intros; eapply Ap; eauto; discriminate]).
  assert (U3' : usable m1 d) by (apply usable_write; [exact U3|eapply Ap; eauto; discriminate|intros; eapply Ap; eauto; discriminate]).
  destruct (write_data_ok m1 d2 x2 U2') as (S2 & _).
  set (m2 := (write_data m1 d2 x2).1) in *.
  assert (U3'' : usable m2 d) by (apply usable_write; [exact U3'|eapply Ap; eauto; discriminate|intros; eapply Ap; eauto; discriminate]).
  destruct (write_data_ok m2 d data U3'') as (S3 & _ & L3).
  exists stored, d, (write_data m2 d data).1. cbv zeta. fold data. split; [exact F|]. split; [exact B|]. split; [exact D3|]. split.
  - apply (C31_records_then_runs fs (list M.val) R _ body inames names f e vals m m1 m2 (write_data m2 d data).1 T).
    + cbn [record_fs]. rewrite (dir_agreement td id ImplGenericArgs krate c target rg Cr Oc), D1. unfold m1. fold x1.
      rewrite (surjective_pairing (write_data m d1 x1)). cbn [fst snd]. now rewrite S1.
    + cbn [record_fs]. rewrite (dir_agreement td id GenericArgs krate c target rg Cr Oc), D2. unfold m2. fold x2.
      rewrite (surjective_pairing (write_data m1 d2 x2)). cbn [fst snd]. now rewrite S2.
    + rewrite OG. cbn [record_fs]. rewrite (dir_agreement td id Corpus krate c target ra Cr Oc), D3.
      rewrite (surjective_pairing (write_data m2 d data)). cbn [fst snd]. now rewrite S3.
  - unfold fs_read. now rewrite L3.
Qed.
Print Assumptions C19_recorded.

(** C19: recordings of other calls, by any threads and in any order, do not disturb the
    file, unless they have the same digest. *)
Theorem C19_kept :
  forall (m : fs) (d : path) (data : bytes) (h : list (path * bytes)),
    fs_read m (d ++ [corpus_name data]) = Some data ->
    (forall x, In (d, x) h -> sha1 x = sha1 data -> x = data) ->
    fs_read (record_all m h) (d ++ [corpus_name data]) = Some data.
Proof.
  intros m d data h L NC. unfold fs_read in *. destruct (m !! (d ++ [corpus_name data])) as [[b|]|] eqn:E; try discriminate.
  injection L as ->. rewrite (Consolidate.record_all_keep_same m h _ _ E); [reflexivity|]. intros d' x I Q.
  apply app_inj_tail in Q as [<- Q]. f_equal. symmetry. apply (NC x I). apply corpus_name_eq. congruence.
Qed.
Print Assumptions C19_kept.

(** C19: replaying the corpus of the target, when the recorded file is in its directory,
    starts a harness on that file exactly once; given that file the harness calls the
    target exactly once, with the original arguments, and reports failure if the target
    panics on them and its result if it returns. *)
Theorem C19_replayed :
  forall (R : Type) w z i n env rs vars vals stored td id krate target d (m : fs) data,
    fields_of w vars rs stored -> rebuilt w rs stored vals -> List.Forall2 (survives i env) rs stored ->
    data = args_data z i rs n stored ->
    dir_from_target td id Corpus krate target = Ret d -> fs_read m (d ++ [corpus_name data]) = Some data ->
    exists fuel, forall g (u : user (list M.val) R) (tgt : list M.val -> option R) o s ns llvm program parent nontrivial,
      fuel <= g -> harness_of w z env g i rs n tgt u ->
      o_replay o = Some Corpus_ ->
      e_exists s = exists_ m d -> e_list s = Some (map Some ns) -> lists_dir m d ns -> no_io_error false s ns ->
      let h := entry_harness_env o llvm program parent in
      flags_and_dir td id Corpus_ krate target = Ret (true, false, d) /\
      (exists es, for_each_entry d o target true false s = (es, Ret tt) /\ once_in (corpus_name data) (started es)) /\
      ((display_enabled h = true -> u_show_args u stored = true) ->
       calls (fst (entry u h nontrivial data)) = [stored] /\ u_target u stored = tgt vals /\
       (tgt vals = None -> snd (entry u h nontrivial data) = HFail) /\
       (forall r, tgt vals = Some r -> u_show_ret u r = true -> display_enabled h = false -> coverage_enabled h = false ->
          entry u h nontrivial data = ([HRead; HCall stored; HShowRet (pretty_print_enabled h) r; HNewline], HPass))).
Proof.
  intros R w z i n env rs vars vals stored td id krate target d m data F B Sv -> D L.
  destruct (args_decode_data z i env rs n stored Sv) as (fuel & Dec). exists fuel.
  intros g u tgt o s ns llvm program parent nontrivial G (Hd & Ht) Rp Ex Li (Dd & ND & LD) Io h.
  split; [unfold flags_and_dir; rewrite D; reflexivity|]. split.
  - assert (X : e_exists s = true).
    { rewrite Ex. unfold exists_, is_dir in *. destruct d; [reflexivity|]. destruct (m !! _) as [[]|]; congruence. }
    destruct (C50_each_entry_once d o target true false s ns X Li Io) as (es & reports & E & _ & _ & St). exists es. split; [exact E|].
    rewrite St. pose proof (fun y => proj1 (C50_entries_exact ns y)) as In1.
    apply NoDup_ListNoDup in ND. apply once_in_nodup; [now apply (proj2 (C50_entries_exact ns (lit "")))|].
    apply In1. split; [|split; apply corpus_name_neq; discriminate]. apply LD. unfold fs_read in L. intros K. rewrite K in L. discriminate.
  - intros Sh.
    assert (Sw : test_fuzz_enabled h = true /\ replay_enabled h = true).
    { unfold h. destruct (entry_switches o (env_extend llvm (lookup_last parent))) as (A & _ & _ & _ & C & _).
      rewrite Rp in C. cbn [is_some orb] in C.
      assert (Eq : forall k, entry_harness_env o llvm program parent k = env_extend (entry_envs o) (env_extend llvm (lookup_last parent)) k).
      { intros k. now rewrite entry_harness_env_eq, env_extend_app. }
      unfold test_fuzz_enabled, replay_enabled in *. rewrite !(enabled_ext _ _ _ Eq). split; assumption. }
    destruct Sw as (Te & Re).
    assert (De : u_decode u (args_data z i rs n stored) = Decoded stored) by (rewrite Hd; now apply Dec).
    assert (Tg : u_target u stored = tgt vals) by (apply Ht; exact B).
    destruct (C30_called_once _ _ u h nontrivial (args_data z i rs n stored) Te (or_intror (or_intror Re))) as (Ca & _).
    split; [apply Ca; assumption|]. split; [exact Tg|]. split.
    + intros Np. apply (proj2 (C30_panic _ _ u h nontrivial _ stored Te De ltac:(congruence) Sh)). now right.
    + intros r Hr Sr Di Co. apply (C30_returns _ _ u h nontrivial _ stored r Te De ltac:(congruence) Sr Di Co). exact Re.
Qed.
Print Assumptions C19_replayed.

(** C19: the same for fuzzing, where the recorded files are the initial inputs: the
    process aborts if the target panics on the original arguments. *)
Theorem C19_fuzzed :
  forall (R : Type) w z i n env rs vars vals stored data,
    fields_of w vars rs stored -> rebuilt w rs stored vals -> List.Forall2 (survives i env) rs stored ->
    data = args_data z i rs n stored ->
    exists fuel, forall g (u : user (list M.val) R) (tgt : list M.val -> option R) ui o llvm parent nontrivial,
      fuel <= g -> harness_of w z env g i rs n tgt u ->
      let e := env_extend llvm (lookup_last parent) in
      ~ switched_on e (lit "TEST_FUZZ_DISPLAY") -> ~ switched_on e (lit "TEST_FUZZ_COVERAGE") -> ~ switched_on e (lit "TEST_FUZZ_REPLAY") ->
      let h := fuzz_harness_env ui o llvm parent in
      entry u h nontrivial data = ([HRead; HCall stored], match tgt vals with Some _ => HPass | None => HAbort end).
Proof.
  intros R w z i n env rs vars vals stored data F B Sv ->.
  destruct (args_decode_data z i env rs n stored Sv) as (fuel & Dec). exists fuel.
  intros g u tgt ui o llvm parent nontrivial G (Hd & Ht) e N1 N2 N3 h.
  assert (Sw : test_fuzz_enabled h = true /\ coverage_enabled h = false /\ display_enabled h = false /\ replay_enabled h = false).
  { destruct (fuzz_switches ui o e) as (A1 & _ & A2 & A3 & A4 & _).
    assert (Eq : forall k, h k = env_extend (fuzz_envs ui o) e k) by (intros k; unfold h, e; now rewrite fuzz_harness_env_eq, env_extend_app).
    assert (Off : forall x, ~ switched_on e (lit "TEST_FUZZ_" ++ x) -> x <> [] -> enabled e x = false).
    { intros x Nx Ne. destruct (enabled e x) eqn:K; [|reflexivity]. destruct Nx. apply enabled_spec in K. destruct x; [contradiction|exact K]. }
    unfold test_fuzz_enabled, coverage_enabled, display_enabled, replay_enabled in *.
    rewrite !(enabled_ext _ _ _ Eq), A2, A3, A4. repeat split; [exact A1|apply Off..]; auto; discriminate. }
  destruct Sw as (Te & Co & Di & Re).
  assert (De : u_decode u (args_data z i rs n stored) = Decoded stored) by (rewrite Hd; now apply Dec).
  assert (Tg : u_target u stored = tgt vals) by (apply Ht; exact B).
  destruct (tgt vals) as [r|].
  - now apply entry_ok with (r := r).
  - now apply (proj1 (entry_panic u h nontrivial _ stored Te De Tg ltac:(congruence))).
Qed.
Print Assumptions C19_fuzzed.

(** C19: everything together.  A call during `cargo test` records a file; whatever is
    recorded after it (without a digest collision in that directory), replaying the corpus starts a
    harness on that file exactly once, and that harness calls the target exactly once,
    with the arguments of the original call. *)
Theorem C19_end_to_end :
  forall (R : Type) w tp self opts draws l rs vars vals z i n env td id krate c target rest_g rest_a
         inames names (f : fopts) (e : Env.env) (body : list M.val -> fs -> fs * option R) (m : fs),
    M.expand_args tp self opts draws l = Ret rs -> List.NoDup (map M.m_ident rs) ->
    List.Forall2 (PropsMacroArgs.whole w tp self (PropsMacroArgs.conversion opts) vars) l vals ->
    (forall stored, fields_of w vars rs stored -> List.Forall2 (survives i env) rs stored) ->
    f_only_generic_args f = false -> ~ switched_on e (lit "TEST_FUZZ") ->
    crate_of krate c -> ~ occurs (lit "_fuzz__") (c ++ lit "::" ++ target ++ lit "_fuzz_") ->
    (forall k d, k <> Output -> dir_from_target td id k krate target = Ret d -> usable m d) ->
    exists (data : bytes) d m1 fuel,
      instrumented (record_fs td id (args_type_name c target rest_g) (args_type_name c target rest_a) (fun _ => data))
        body inames names true f e vals m = body vals m1 /\
      forall history g (u : user (list M.val) R) (tgt : list M.val -> option R) o s ns llvm program parent nontrivial,
        let m2 := record_all m1 history in
        (forall x, In (d, x) history -> sha1 x = sha1 data -> x = data) ->
        fuel <= g -> harness_of w z env g i rs n tgt u -> o_replay o = Some Corpus_ ->
        e_exists s = exists_ m2 d -> e_list s = Some (map Some ns) -> lists_dir m2 d ns -> no_io_error false s ns ->
        let h := entry_harness_env o llvm program parent in
        ~ switched_on h (lit "TEST_FUZZ_DISPLAY") ->
        flags_and_dir td id Corpus_ krate target = Ret (true, false, d) /\
        (exists es, for_each_entry d o target true false s = (es, Ret tt) /\ once_in (corpus_name data) (started es)) /\
        fs_read m2 (d ++ [corpus_name data]) = Some data /\
        map (u_target u) (calls (fst (entry u h nontrivial data))) = [tgt vals] /\
        (tgt vals = None -> snd (entry u h nontrivial data) = HFail).
Proof.
  intros R w tp self opts draws l rs vars vals z i n env td id krate c target rg ra inames names f e body m E ND W Sv OG T Cr Oc Us.
  destruct (C19_recorded R w tp self opts draws l rs vars vals z i n td id krate c target rg ra inames names f e body m E ND W OG T Cr Oc Us)
    as (stored & d & m1 & F & B & D & In & L).
  specialize (Sv stored F). set (data := args_data z i rs n stored) in *.
  destruct (args_decode_data z i env rs n stored Sv) as (fuel0 & Dec).
  assert (Rep : forall m2 : fs, fs_read m2 (d ++ [corpus_name data]) = Some data ->
    exists fuel, forall g (u : user (list M.val) R) (tgt : list M.val -> option R) o s ns llvm program parent nontrivial,
      fuel <= g -> harness_of w z env g i rs n tgt u -> o_replay o = Some Corpus_ ->
      e_exists s = exists_ m2 d -> e_list s = Some (map Some ns) -> lists_dir m2 d ns -> no_io_error false s ns ->
      let h := entry_harness_env o llvm program parent in
      flags_and_dir td id Corpus_ krate target = Ret (true, false, d) /\
      (exists es, for_each_entry d o target true false s = (es, Ret tt) /\ once_in (corpus_name data) (started es)) /\
      ((display_enabled h = true -> u_show_args u stored = true) ->
       calls (fst (entry u h nontrivial data)) = [stored] /\ u_target u stored = tgt vals /\
       (tgt vals = None -> snd (entry u h nontrivial data) = HFail) /\
       (forall r, tgt vals = Some r -> u_show_ret u r = true -> display_enabled h = false -> coverage_enabled h = false ->
          entry u h nontrivial data = ([HRead; HCall stored; HShowRet (pretty_print_enabled h) r; HNewline], HPass)))).
  { intros m2 L2. exact (C19_replayed R w z i n env rs vars vals stored td id krate target d m2 data F B Sv eq_refl D L2). }
  exists data, d, m1, fuel0. split; [exact In|].
  intros history g u tgt o s ns llvm program parent nt m2 NC G Hu Rp Ex Li Ld Io h Nd.
  pose proof (C19_kept m1 d data history L NC) as L2. fold m2 in L2.
  destruct (Rep m2 L2) as (fuel' & K).
  (* the harness does not depend on the fuel beyond [fuel0] *)
  pose (u' := {| u_decode := args_decode z env (max g fuel') i rs n; u_show_args := u_show_args u; u_target := u_target u; u_show_ret := u_show_ret u |}).
  assert (Hu' : harness_of w z env (max g fuel') i rs n tgt u') by (split; [reflexivity|exact (proj2 Hu)]).
  destruct (K (max g fuel') u' tgt o s ns llvm program parent nt ltac:(lia) Hu' Rp Ex Li Ld Io) as (K1 & K2 & K3).
  assert (Q : entry u' h nt data = entry u h nt data).
  { assert (Di : u_decode u' data = u_decode u data).
    { destruct Hu as (Hd & _). rewrite Hd. cbn [u' u_decode]. unfold data. rewrite !Dec by lia. reflexivity. }
    unfold entry, entry_body, input_args. rewrite Di. reflexivity. }
  assert (Nd' : display_enabled h = true -> u_show_args u stored = true).
  { intros K'. apply enabled_spec in K'. contradiction. }
  destruct (K3 Nd') as (K4 & K5 & K6 & _). fold h in K4, K6. rewrite Q in K4, K6.
  split; [exact K1|]. split; [exact K2|]. split; [exact L2|]. split; [|exact K6].
  rewrite K4. cbn [map]. change (u_target u) with (u_target u'). now rewrite K5.
Qed.
Print Assumptions C19_end_to_end.

(** [fn target(text: &str)] called with ["hi"], in the crate [my-crate]: the recorded file
    and what the harness makes of it. *)
Definition ex_impls : impls := {|
  i_shape := fun _ => Serde.TString;
  i_to := fun _ v => match v with M.VString s => Serde.VString s | _ => Serde.VUnit end;
  i_from := fun _ v => match v with Serde.VString s => Some (M.VString s) | _ => None end |}.
Example C19_example :
  let w := {| M.clonable := fun _ => False; M.from_ref := fun _ _ _ => None; M.into := fun _ _ _ => None |} in
  let l := [M.Typed 0 (M.PatIdent (lit "text") None) (Syntax.RRef None false (Syntax.rname "str"))] in
  let vals := [M.VRef (M.VStr (lit "hi"))] in
  let vars x := if str_eqb x (lit "text") then Some (M.sem (Syntax.RRef None false (Syntax.rname "str")), M.VRef (M.VStr (lit "hi"))) else None in
  exists rs, M.expand_args None None [] [] l = Ret rs /\ List.NoDup (map M.m_ident rs) /\
    List.Forall2 (PropsMacroArgs.whole w None None (PropsMacroArgs.conversion []) vars) l vals /\
    fields_of w vars rs [M.VString (lit "hi")] /\ rebuilt w rs [M.VString (lit "hi")] vals /\
    survives ex_impls (fun _ => Serde.TUnit) (hd {| M.m_attrs := 0; M.m_ident := []; M.m_label := []; M.m_type := Syntax.rname ""; M.m_mapped := (Syntax.rname "", M.EVar [], M.EVar []) |} rs) (M.VString (lit "hi")) /\
    (let data := args_data false ex_impls rs 0 [M.VString (lit "hi")] in
     let td := [lit "target"] in
     let tn := args_type_name (lit "my_crate") (lit "tests::target") (lit "::write_args::Args") in
     data = Ascii.ascii_of_nat 2 :: lit "hi" /\
     args_decode false (fun _ => Serde.TUnit) 5 ex_impls rs 0 data = Decoded [M.VString (lit "hi")] /\
     args_decode false (fun _ => Serde.TUnit) 5 ex_impls rs 0 (Ascii.ascii_of_nat 3 :: lit "hi") = NotDecoded /\
     flags_and_dir td None Corpus_ (lit "my-crate") (lit "tests::target") = Ret (true, false, [lit "target"; lit "corpus"; lit "my_crate::tests::target"]) /\
     fs_read (fst (instrumented (record_fs td None tn tn (fun _ => data)) (fun _ m => (m, Some tt)) [] [] true
        {| f_only_generic_args := false; f_enable_in_production := false |} (fun _ => None) vals ∅))
       ([lit "target"; lit "corpus"; lit "my_crate::tests::target"] ++ [corpus_name data]) = Some data).
Proof.
  cbv zeta. eexists. split; [vm_compute; reflexivity|]. split; [cbn; repeat constructor; cbn; tauto|].
  split.
  { constructor; [|constructor]. exists (lit "text"), (Syntax.RRef None false (Syntax.rname "str")). split; [constructor; reflexivity|]. split; [reflexivity|]. split; [exact I|].
    split; [intros (? & ? & ? & X); discriminate|]. apply M.st_str; reflexivity. }
  split; [constructor; [|constructor]; apply M.ev_to_owned with (m := false); constructor; reflexivity|].
  split; [constructor; [|constructor]; apply M.ev_as_str; apply (M.ev_field _ _ _ _ (Syntax.rname "String")); reflexivity|].
  split; [split; [constructor; [reflexivity|unfold Serde.fits_len; reflexivity]|split; [constructor; [unfold PropsSerde.short; cbn; discriminate|constructor]|reflexivity]]|].
  split; [reflexivity|]. split; [vm_compute; reflexivity|]. split; [vm_compute; reflexivity|]. split; [vm_compute; reflexivity|]. vm_compute; reflexivity.
Qed.
