(** C116: the project's sample targets get the corpora its tests expect. *)
From Coq Require Import List Ascii String Bool Arith NArith ZArith Lia.
From stdpp Require Import gmap.
From Verif Require Import Base Utf8 Lossy Env Dirs Opts Sha1 Fs Write FuzzCmd Syntax SelfTy MacroArgs MacroMod Auto AutoTy AutoGen PropsAuto Fuzzable.
From Verif Require Serde Postcard.
Import ListNotations.
Local Open Scope nat_scope.

(** * Specification *)

(** Nothing is there. *)
Definition absent (m : fs) (d : path) : Prop := forall q, m !! (d ++ q) = None.

(** The directory holds these files, named by their digests, and nothing else. *)
Definition holds (m : fs) (d : path) (l : list bytes) : Prop :=
  exists ns, lists_dir m d ns /\ List.length ns = List.length l /\ forall x, In x l -> m !! (d ++ [corpus_name x]) = Some (File x).

(** The samples with auto-generated corpora: function, what the type of its argument implements,
    how a value is serialised, and the values that are expected to be recorded.  That is 6 entries
    for the first two (test-fuzz/tests/integration/auto_generate.rs:8, 14) and 1 for the others
    (cargo-test-fuzz/tests/integration/auto_generate.rs:33 for [assert]). *)
Definition i64 : ity := {| it_bits := 64; it_signed := true |}.
Definition u64 : ity := {| it_bits := 64; it_signed := false |}.
Definition samples : list (func * AutoTy.impls Z * (Z -> Serde.val) * list Z) :=
  [(signed_target, int_impls i64, Serde.VSInt Serde.W64, [- 2 ^ 63; 2 ^ 63 - 1; 0; 2 ^ 63 - 2; -1; - 2 ^ 63 + 1]%Z);
   (unsigned_target, int_impls u64, fun v => Serde.VUInt Serde.W64 (Z.to_N v), [0; 2 ^ 64 - 1; 2 ^ 64 - 2; 2 ^ 63 - 1; 2 ^ 63; 1]%Z);
   (assert_target, only_default 0, fun v => Serde.VBool (negb (v =? 0)%Z), [0]%Z);
   (default_target, only_default 0, fun v => Serde.VBool (negb (v =? 0)%Z), [0]%Z)].

(** * Proofs *)

Lemma recorded_exactly m d xs l :
  usable m d -> absent m d -> d <> [] -> xs <> [] -> (forall x, In x xs <-> In x l) -> NoDup (map corpus_name l) ->
  holds (record_all m (map (fun x => (d, x)) xs)) d l.
Proof.
  intros U Ab Dn Ne Same ND. set (h := map (fun x => (d, x)) xs).
  assert (Ih : forall d' x, In (d', x) h <-> d' = d /\ In x xs).
  { intros d' x. unfold h. rewrite in_map_iff. split; [intros (y & [= <- <-] & I); auto|intros (-> & I); eauto]. }
  destruct (record_all_spec m h) as (A & B & C & _).
  { intros d' x I. apply Ih in I as (-> & _). exact U. }
  { intros d1 x1 d2 x2 y I1 I2 (q & Q). apply Ih in I1 as (-> & _). apply Ih in I2 as (-> & _). apply (f_equal (@List.length _)) in Q. rewrite !app_length in Q. cbn [List.length] in Q. lia. }
  assert (inj : forall x y, In x l -> In y l -> corpus_name x = corpus_name y -> x = y).
  { clear - ND. apply NoDup_ListNoDup in ND. induction l as [|a l IH]; intros x y Ix Iy E; [destruct Ix|]. cbn [map] in ND. inversion ND as [|? ? N ND']; subst.
    destruct Ix as [->|Ix], Iy as [->|Iy]; [reflexivity| | |now apply IH].
    - exfalso. apply N. rewrite E. now apply in_map.
    - exfalso. apply N. rewrite <- E. now apply in_map. }
  assert (G : forall x, In x l -> record_all m h !! (d ++ [corpus_name x]) = Some (File x)).
  { intros x I. apply Same in I. destruct (A d x) as (x' & I' & E & L); [now apply Ih|]. apply Ih in I' as (_ & I'). rewrite L. do 2 f_equal. apply inj; [now apply Same..|exact E]. }
  exists (map corpus_name l). split; [|split; [now rewrite map_length|exact G]].
  destruct xs as [|x0 xs']; [contradiction|]. split; [|split; [exact ND|]].
  - unfold is_dir. destruct d as [|a d]; [contradiction|]. rewrite (B (a :: d) x0); [reflexivity|apply Ih; split; [reflexivity|now left]|discriminate|].
    apply is_prefix_spec. exists []. now rewrite app_nil_r.
  - intros n. rewrite in_map_iff. split.
    + intros (x & <- & I). rewrite (G x I). discriminate.
    + intros K. destruct (record_all m h !! (d ++ [n])) as [nd|] eqn:L; [|contradiction]. apply record_all_lookup in L as [L|[(_ & _ & d' & x & I & P)|(d' & x & I & _ & E)]].
      * rewrite Ab in L. discriminate.
      * exfalso. apply Ih in I as (-> & _). apply is_prefix_spec in P as (q & Q). apply (f_equal (@List.length _)) in Q. rewrite !app_length in Q. cbn [List.length] in Q. lia.
      * apply Ih in I as (-> & I). apply app_inj_tail in E as (_ & ->). exists x. split; [reflexivity|]. now apply Same.
Qed.

Transparent sha1 corpus_name.
(** C116: if nothing is recorded for the target, the generated test records exactly the expected
    values, whatever else is in the file system. *)
Theorem C116_generated :
  forall (f : func) (t : AutoTy.impls Z) (field : Z -> Serde.val) (values : list Z) (cf : config) (draws : list N) (z : bool) (e : env) (d : path) (m : fs),
    In (f, t, field, values) samples -> test_fuzz_enabled e = false -> usable m d -> absent m d -> d <> [] ->
    exists f' ins md m', test_fuzz cf default_mopts draws f = Ret (f', ins, md) /\
      generate md e (one_field z field) d [t] m = (m', true) /\ holds m' d (map (fun v => Postcard.serialize z false (Serde.VTuple [field v])) values).
Proof.
  intros f t field values cf draws z e d m I T U Ab Dn.
  assert (X : exists f' ins md, test_fuzz cf default_mopts draws f = Ret (f', ins, md) /\ md_auto md = true).
  { destruct cf as [[|] [|]]; repeat destruct I as [[= <- _ _ _]|I]; try destruct I; do 3 eexists; (split; [reflexivity|reflexivity]). }
  destruct X as (f' & ins & md & X & Au). exists f', ins, md.
  assert (Y : exists autos es, autos_of [t] = Ret autos /\ args_from_autos autos = Ret es /\ es <> [] /\
              (forall x, In x (map (one_field z field) es) <-> In x (map (fun v => Postcard.serialize z false (Serde.VTuple [field v])) values))).
  { clear - I. repeat destruct I as [[= <- <- <- <-]|I]; try destruct I; do 2 eexists; (split; [vm_compute; reflexivity|]); (split; [vm_compute; reflexivity|]); (split; [discriminate|]);
      intros x; unfold one_field; cbn [map In]; tauto. }
  destruct Y as (autos & es & A1 & A2 & A3 & A4).
  assert (ND : NoDup (map corpus_name (map (fun v => Postcard.serialize z false (Serde.VTuple [field v])) values))).
  { clear - I. apply (bool_decide_eq_true_1 (NoDup _)).
    destruct z; repeat destruct I as [[= <- <- <- <-]|I]; try destruct I; vm_compute; reflexivity. }
  destruct (C39_generated_corpus Z e (one_field z field) d autos m T U) as (es' & E1 & E2). assert (es' = es) as -> by congruence.
  exists (record_all m (map (fun a => (d, one_field z field a)) es)). split; [exact X|]. split.
  - unfold generate. rewrite Au, A1. exact E2.
  - rewrite <- (map_map (one_field z field) (fun x => (d, x))). apply recorded_exactly; auto. destruct es; [contradiction|discriminate].
Qed.
Opaque sha1 corpus_name.
Print Assumptions C116_generated.

Lemma holds_exists m d l : d <> [] -> holds m d l -> exists_ m d = true.
Proof.
  intros Dn (ns & (D & _) & _). unfold is_dir in D. unfold exists_. destruct d as [|a d]; [contradiction|]. destruct (m !! (a :: d)); [reflexivity|discriminate].
Qed.

Lemma absent_exists m d : d <> [] -> absent m d -> exists_ m d = false.
Proof. intros Dn Ab. unfold exists_. destruct d as [|a d]; [contradiction|]. specialize (Ab []). rewrite app_nil_r in Ab. now rewrite Ab. Qed.

Lemma corpus_dir_target td id x t : dir_from_target td id Corpus (x_name x) t = Ret (corpus_dir td id (x, t)) /\ corpus_dir td id (x, t) <> [].
Proof. split; [apply dir_from_target_eq|unfold corpus_dir; now destruct td]. Qed.

(** C116: fuzzing such a target when nothing is recorded for it generates that corpus first, says so
    and goes on. *)
Theorem C116_fuzzed :
  forall (f : func) (t : AutoTy.impls Z) (field : Z -> Serde.val) (values : list Z) (cf : config) (draws : list N) (z : bool) (e : env)
         (td : path) (id : option str) (x : exe) (target : str) (m : fs),
    let d := corpus_dir td id (x, target) in
    In (f, t, field, values) samples -> test_fuzz_enabled e = false -> usable m d -> absent m d ->
    exists f' ins md m', test_fuzz cf default_mopts draws f = Ret (f', ins, md) /\
      auto_generate_corpora td id (fun m _ _ => generate md e (one_field z field) d [t] m) m [(x, target)] =
        (m', [(x, target)],
         [lit "Could not find `" ++ lossy (path_text d) ++ lit "`. Trying to auto-generate it..."; lit "Auto-generated `" ++ lossy (path_text d) ++ lit "`."], Ret tt) /\
      holds m' d (map (fun v => Postcard.serialize z false (Serde.VTuple [field v])) values).
Proof.
  intros f t field values cf draws z e td id x target m d I T U Ab. destruct (corpus_dir_target td id x target) as (De & Dn). fold d in De, Dn.
  destruct (C116_generated f t field values cf draws z e d m I T U Ab Dn) as (f' & ins & md & m' & X & G & H).
  exists f', ins, md, m'. split; [exact X|]. split; [|exact H].
  unfold auto_generate_corpora. cbn [autogen_loop]. rewrite De, (absent_exists m d Dn Ab), G. cbn [autogen_loop andb]. rewrite (holds_exists m' d _ Dn H). reflexivity.
Qed.
Print Assumptions C116_fuzzed.

(** C116: a target whose attribute says [no_auto_generate], and a target with an argument of a type
    that implements none of the traits, get nothing recorded: fuzzing them ends with an error that
    names the target, and the file system is as before. *)
Theorem C116_missing :
  forall (opts : mopts) (f : func) (t : AutoTy.impls Z) (field : Z -> Serde.val) (cf : config) (draws : list N) (z : bool) (e : env)
         (td : path) (id : option str) (x : exe) (target : str) (m : fs),
    let d := corpus_dir td id (x, target) in
    (opts = alloc_opts /\ f = alloc_target) \/ (opts = default_mopts /\ f = default_target /\ t = nothing) -> exists_ m d = false ->
    exists f' ins md, test_fuzz cf opts draws f = Ret (f', ins, md) /\
      auto_generate_corpora td id (fun m _ _ => generate md e (one_field z field) d [t] m) m [(x, target)] =
        (m, [(x, target)], [lit "Could not find `" ++ lossy (path_text d) ++ lit "`. Trying to auto-generate it..."],
         Err (LF :: lit "Could not find or auto-generate `" ++ lossy (path_text d) ++ lit "`. Please ensure `" ++ target ++ lit "` is tested.")).
Proof.
  intros opts f t field cf draws z e td id x target m d Q Ab. destruct (corpus_dir_target td id x target) as (De & _). fold d in De.
  assert (X : exists f' ins md, test_fuzz cf opts draws f = Ret (f', ins, md) /\ generate md e (one_field z field) d [t] m = (m, true)).
  { destruct Q as [(-> & ->)|(-> & -> & ->)]; destruct cf as [[|] [|]]; do 3 eexists; (split; [reflexivity|]); unfold generate; cbn [md_auto];
      try reflexivity; unfold auto_generate; destruct (test_fuzz_enabled e); reflexivity. }
  destruct X as (f' & ins & md & X & G). exists f', ins, md. split; [exact X|].
  unfold auto_generate_corpora. cbn [autogen_loop]. rewrite De, Ab, G. cbn [autogen_loop andb]. rewrite Ab. unfold gen_error, trying. cbn. reflexivity.
Qed.
Print Assumptions C116_missing.

Transparent sha1 corpus_name.
(** The sample with [i64] in an empty file system: nothing there to begin with, then three
    directories and six files, among them the one for -1. *)
Example C116_example :
  let x := {| x_path := lit "/t/debug/deps/auto_generate-0"; x_name := lit "auto_generate" |} in
  let d := corpus_dir [lit "t"] None (x, lit "signed::target") in
  absent ∅ d /\ usable ∅ d /\
  match test_fuzz {| cfg_fuzzing := false; cfg_cast_checks := false |} default_mopts [] signed_target with
  | Ret (_, _, md) =>
      let m := fst (generate md (fun _ => None) (one_field false (Serde.VSInt Serde.W64)) d [int_impls i64] ∅) in
      size m = 9 /\ is_dir m d = true /\ m !! (d ++ [corpus_name [ascii_of_N 1]]) = Some (File [ascii_of_N 1]) /\
      snd (auto_generate_corpora [lit "t"] None (fun m _ _ => generate md (fun _ => None) (one_field false (Serde.VSInt Serde.W64)) d [nothing] m) ∅ [(x, lit "signed::target")])
        = Err (LF :: lit "Could not find or auto-generate `/t/corpus/auto_generate::signed::target`. Please ensure `signed::target` is tested.")
  | _ => False
  end.
Proof.
  split; [intros q; apply lookup_empty|]. split; [split; [intros q Q; rewrite lookup_empty; discriminate|intros x; rewrite lookup_empty; discriminate]|].
  vm_compute. auto.
Qed.
Opaque sha1 corpus_name.
