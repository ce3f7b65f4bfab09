(** Looking up dependency versions in cargo's metadata, and the build's messages. *)
From Coq Require Import String List Ascii Bool Arith NArith Lia.
From Verif Require Import Base Semver.
Import ListNotations.

(** cargo_metadata's [Package] and [Node] (external), the fields that are used. *)
Record package := { p_id : str; p_name : str; p_version : version }.
Record node := { n_id : str; n_deps : list str }.

(** cargo_metadata's [Metadata] (external): packages and [resolve.nodes]. *)
Record metadata := { md_packages : list package; md_resolve : option (list node) }.

(** cargo-test-fuzz/src/lib.rs:590-596 [package]. *)
Definition find_package (md : metadata) (id : str) : outcome package :=
  match find (fun p => str_eqb (p_id p) id) (md_packages md) with
  | Some p => Ret p
  | None => Err (lit "Could not find package `" ++ id ++ lit "`")
  end.

(** cargo-test-fuzz/src/lib.rs:582-584 [package_name]. *)
Definition package_name (md : metadata) (id : str) : outcome str :=
  bind (find_package md id) (fun p => Ret (p_name p)).

(** cargo-test-fuzz/src/lib.rs:586-588 [package_version]. *)
Definition package_version (md : metadata) (id : str) : outcome version :=
  bind (find_package md id) (fun p => Ret (p_version p)).

(** cargo-test-fuzz/src/lib.rs:550-580 [package_dependency]. *)
Definition package_dependency (md : metadata) (id name : str) : outcome (option str) :=
  match md_resolve md with
  | None => Err (lit "No dependency graph")
  | Some nodes =>
      match find (fun n => str_eqb (n_id n) id) nodes with
      | None => Err (lit "Could not find package `" ++ id ++ lit "`")
      | Some n =>
          bind (mapM (fun d => bind (package_name md d) (fun nm => Ret (d, nm))) (n_deps n)) (fun l =>
          Ret (match find (fun dn => str_eqb (snd dn) name) l with
               | Some (d, _) => Some d
               | None => None
               end))
      end
  end.

(** [Option::map(..).transpose()] (std). *)
Definition map_transpose {A B} (f : A -> outcome B) (o : option A) : outcome (option B) :=
  match o with
  | None => Ret None
  | Some a => bind (f a) (fun b => Ret (Some b))
  end.

(** cargo-test-fuzz/src/lib.rs:531-548 [test_fuzz_and_afl_versions]. *)
Definition test_fuzz_and_afl_versions (md : metadata) (id : str) : outcome (option version * option version) :=
  bind (package_dependency md id (lit "test-fuzz")) (fun test_fuzz =>
  bind (map_transpose (fun p => package_dependency md p (lit "afl")) test_fuzz) (fun afl =>
  bind (map_transpose (package_version md) test_fuzz) (fun tv =>
  bind (map_transpose (package_version md) (match afl with Some (Some p) => Some p | _ => None end)) (fun av =>
  Ret (tv, av))))).

(** An executable with its versions, cargo-test-fuzz/src/lib.rs:237-242 [Executable]. *)
Record executable := {
  ex_path : str;
  ex_name : str;
  ex_test_fuzz : option version;
  ex_afl : option version;
}.

(** cargo_metadata's [Message] (external): a compiler artifact with the fields that
    are used, a compiler message, or anything else. *)
Inductive message :=
| Artifact (package_id target_name : str) (profile_test : bool) (exe : option str)
| CompilerMessage (text : str)   (** as printed *)
| OtherMessage.

(** cargo-test-fuzz/src/lib.rs:503-528: the executables of a successful build. *)
Fixpoint executables (md : metadata) (ms : list message) : outcome (list executable) :=
  match ms with
  | [] => Ret []
  | Artifact id name true (Some exe) :: ms' =>
      bind (test_fuzz_and_afl_versions md id) (fun v =>
      bind (executables md ms') (fun l =>
      Ret ({| ex_path := exe; ex_name := name; ex_test_fuzz := fst v; ex_afl := snd v |} :: l)))
  | _ :: ms' => executables md ms'
  end.

(** * Specification *)

(** [x] is the first element of [l] satisfying [P]. *)
Definition first_such {A} (P : A -> Prop) (l : list A) (x : A) : Prop :=
  exists l1 l2, l = l1 ++ x :: l2 /\ P x /\ forall y, In y l1 -> ~ P y.

(** The package with an id. *)
Definition is_package (md : metadata) (id : str) (p : package) : Prop :=
  first_such (fun q => p_id q = id) (md_packages md) p.

(** The direct dependencies of a package. *)
Definition direct_deps (md : metadata) (id : str) (ds : list str) : Prop :=
  exists nodes n, md_resolve md = Some nodes /\ first_such (fun n => n_id n = id) nodes n /\ ds = n_deps n.

(** All direct dependencies of [id] are known packages. *)
Definition graph_ok (md : metadata) (id : str) : Prop :=
  exists ds, direct_deps md id ds /\ forall d, In d ds -> exists p, is_package md d p.

Definition named (md : metadata) (name d : str) : Prop := exists p, is_package md d p /\ p_name p = name.

(** [r]: the first direct dependency of [id] with the name, if there is one. *)
Definition dependency (md : metadata) (id name : str) (r : option str) : Prop :=
  exists ds, direct_deps md id ds /\
    match r with
    | Some d => first_such (named md name) ds d
    | None => forall d, In d ds -> ~ named md name d
    end.

(** * Proofs *)

Lemma find_first {A} (f : A -> bool) (P : A -> Prop) l :
  (forall x, f x = true <-> P x) ->
  match find f l with
  | Some x => first_such P l x
  | None => forall x, In x l -> ~ P x
  end.
Proof.
  intros H. induction l as [|a l IH]; cbn [find]; [intros x []|].
  destruct (f a) eqn:E.
  - exists [], l. split; [reflexivity|]. split; [now apply H|]. intros y [].
  - assert (Na : ~ P a) by (rewrite <- H; congruence).
    destruct (find f l) as [x|].
    + destruct IH as (l1 & l2 & -> & Px & N). exists (a :: l1), l2. split; [reflexivity|]. split; [exact Px|].
      intros y [<-|Y]; auto.
    + intros x [<-|X]; auto.
Qed.

Lemma first_such_unique {A} (P : A -> Prop) l x y : first_such P l x -> first_such P l y -> x = y.
Proof.
  intros (l1 & l2 & -> & Px & N) (k1 & k2 & E & Py & M).
  revert k1 E M. induction l1 as [|a l1 IH]; intros [|b k1] E M.
  - now injection E.
  - injection E as -> E. exfalso. apply (M b); [now left|exact Px].
  - injection E as -> E. exfalso. apply (N y); [now left|exact Py].
  - injection E as -> E. apply (IH (fun z Z => N z (or_intror Z)) k1); [exact E|]. intros z Z. apply M. now right.
Qed.

Lemma first_such_in {A} (P : A -> Prop) l x : first_such P l x -> In x l /\ P x.
Proof. intros (l1 & l2 & -> & Px & _). split; [apply in_app_iff; right; now left|exact Px]. Qed.

Lemma find_package_spec md id :
  match find_package md id with
  | Ret p => is_package md id p
  | Err _ => forall p, ~ is_package md id p
  | Panic => False
  end.
Proof.
  unfold find_package.
  pose proof (find_first (fun p => str_eqb (p_id p) id) (fun q => p_id q = id) (md_packages md)) as F.
  destruct (find _ _) as [p|].
  - apply F. intros x. apply str_eqb_eq.
  - intros p K. apply first_such_in in K as [K1 K2]. refine (F _ p K1 K2). intros x. apply str_eqb_eq.
Qed.

Lemma mapM_ret {A B} (f : A -> outcome B) l l' :
  mapM f l = Ret l' <-> Forall2 (fun a b => f a = Ret b) l l'.
Proof.
  split.
  - revert l'. induction l as [|a l IH]; intros l' E; cbn [mapM] in E.
    + injection E as <-. constructor.
    + destruct (f a) as [b|e|] eqn:Fa; cbn [bind] in E; [|discriminate|discriminate].
      destruct (mapM f l) as [bs|e|] eqn:Fl; cbn [bind] in E; [|discriminate|discriminate].
      injection E as <-. constructor; auto.
  - induction 1 as [|a b l l' H _ IH]; [reflexivity|]. cbn [mapM]. rewrite H. cbn [bind]. rewrite IH. reflexivity.
Qed.

Lemma mapM_err {A B} (f : A -> outcome B) l :
  (forall a, In a l -> f a <> Panic) ->
  (exists l', mapM f l = Ret l') \/ ((exists e, mapM f l = Err e) /\ exists a e, In a l /\ f a = Err e).
Proof.
  induction l as [|a l IH]; intros N; [left; now exists []|].
  destruct (f a) as [b|e|] eqn:Fa.
  - destruct IH as [[l' E]|((e & E) & a' & e' & I & Fe)]; [intros; apply N; now right| |].
    + left. exists (b :: l'). cbn [mapM]. rewrite Fa. cbn [bind]. now rewrite E.
    + right. split; [exists e; cbn [mapM]; rewrite Fa; cbn [bind]; now rewrite E|].
      exists a', e'. split; [now right|exact Fe].
  - right. split; [exists e; cbn [mapM]; now rewrite Fa|]. exists a, e. split; [now left|exact Fa].
  - exfalso. apply (N a); [now left|exact Fa].
Qed.

Lemma package_name_spec md d nm : package_name md d = Ret nm <-> exists p, is_package md d p /\ p_name p = nm.
Proof.
  unfold package_name. pose proof (find_package_spec md d) as H. split.
  - intros E. destruct (find_package md d) as [p|e|]; cbn [bind] in E; [|discriminate|discriminate].
    injection E as <-. now exists p.
  - intros (p & I & <-). destruct (find_package md d) as [q|e|]; cbn [bind].
    + now rewrite (first_such_unique _ _ _ _ H I).
    + exfalso. apply (H p I).
    + destruct H.
Qed.

Lemma package_name_not_panic md d : package_name md d <> Panic.
Proof.
  unfold package_name. pose proof (find_package_spec md d) as H. now destruct (find_package md d).
Qed.

Lemma find_pair_first md name ds l :
  Forall2 (fun d dn => bind (package_name md d) (fun nm => Ret (d, nm)) = Ret dn) ds l ->
  match (match find (fun dn => str_eqb (snd dn) name) l with Some (d, _) => Some d | None => None end) with
  | Some d => first_such (named md name) ds d
  | None => forall d, In d ds -> ~ named md name d
  end.
Proof.
  induction 1 as [|d dn ds l H _ IH]; cbn [find]; [intros d []|].
  destruct (package_name md d) as [nm|e|] eqn:E; cbn [bind] in H; [|discriminate|discriminate].
  injection H as <-. cbn [snd]. apply package_name_spec in E as (p & Ip & Np).
  destruct (str_eqb nm name) eqn:Q.
  - apply str_eqb_eq in Q. exists [], ds. split; [reflexivity|]. split; [exists p; split; [exact Ip|congruence]|]. intros y [].
  - assert (Nd : ~ named md name d).
    { intros (q & Iq & Nq). rewrite (first_such_unique _ _ _ _ Iq Ip) in Nq.
      assert (X : nm = name) by congruence. apply str_eqb_eq in X. congruence. }
    destruct (find (fun dn => str_eqb (snd dn) name) l) as [[d' x]|].
    + destruct IH as (l1 & l2 & -> & Px & N). exists (d :: l1), l2. split; [reflexivity|]. split; [exact Px|].
      intros y [<-|Y]; auto.
    + intros y [<-|Y]; auto.
Qed.

Lemma package_dependency_spec md id name :
  match package_dependency md id name with
  | Ret r => graph_ok md id /\ dependency md id name r
  | Err _ => ~ graph_ok md id
  | Panic => False
  end.
Proof.
  unfold package_dependency. destruct (md_resolve md) as [nodes|] eqn:R.
  2:{ intros (ds & (ns & n & K & _) & _). congruence. }
  pose proof (find_first (fun n => str_eqb (n_id n) id) (fun n => n_id n = id) nodes) as F.
  destruct (find _ nodes) as [n|].
  - specialize (F (fun x => str_eqb_eq (n_id x) id)).
    assert (DD : direct_deps md id (n_deps n)) by (exists nodes, n; auto).
    destruct (mapM_err (fun d => bind (package_name md d) (fun nm => Ret (d, nm))) (n_deps n)) as [[l E]|((e & E) & d & e' & I & Fd)].
    + intros d _. pose proof (package_name_not_panic md d). now destruct (package_name md d).
    + rewrite E. cbn [bind]. apply mapM_ret in E. split.
      * exists (n_deps n). split; [exact DD|]. intros d I. clear - E I. induction E as [|d' dn ds l H _ IH]; [destruct I|].
        destruct I as [->|I]; [|auto]. destruct (package_name md d) as [nm|e|] eqn:Q; [|discriminate|discriminate].
        apply package_name_spec in Q as (p & Ip & _). now exists p.
      * exists (n_deps n). split; [exact DD|]. now apply find_pair_first.
    + rewrite E. cbn [bind]. intros (ds & (ns & n' & K & Fn & ->) & G).
      assert (ns = nodes) by congruence. subst ns. assert (n' = n) by (eapply first_such_unique; eauto). subst n'.
      destruct (G d I) as (p & Ip).
      assert (Q : package_name md d = Ret (p_name p)) by (apply package_name_spec; eauto).
      rewrite Q in Fd. discriminate.
  - intros (ds & (ns & n' & K & Fn & ->) & _). assert (ns = nodes) by congruence. subst ns.
    apply first_such_in in Fn as [I1 I2]. refine (F _ n' I1 I2). intros x. apply str_eqb_eq.
Qed.

(** Both versions. *)
Definition versions (md : metadata) (id : str) (tv av : option version) : Prop :=
  graph_ok md id /\ exists r, dependency md id (lit "test-fuzz") r /\
    match r with
    | None => tv = None /\ av = None
    | Some t =>
        graph_ok md t /\ (exists p, is_package md t p /\ tv = Some (p_version p)) /\
        exists a, dependency md t (lit "afl") a /\
          match a with
          | None => av = None
          | Some a => exists p, is_package md a p /\ av = Some (p_version p)
          end
    end.

Lemma direct_deps_unique md id ds ds' : direct_deps md id ds -> direct_deps md id ds' -> ds = ds'.
Proof.
  intros (ns & n & E & F & ->) (ns' & n' & E' & F' & ->). assert (ns' = ns) by congruence. subst ns'.
  now rewrite (first_such_unique _ _ _ _ F F').
Qed.

Lemma dependency_unique md id name r r' : dependency md id name r -> dependency md id name r' -> r = r'.
Proof.
  intros (ds & D & H) (ds' & D' & H'). rewrite <- (direct_deps_unique _ _ _ _ D D') in H'. clear D D' ds'.
  destruct r as [d|], r' as [d'|]; [f_equal; eapply first_such_unique; eauto| | |reflexivity].
  - apply first_such_in in H as [I N]. exfalso. exact (H' d I N).
  - apply first_such_in in H' as [I N]. exfalso. exact (H d' I N).
Qed.

Lemma dependency_package md id name d : dependency md id name (Some d) -> exists p, is_package md d p.
Proof. intros (ds & _ & H). apply first_such_in in H as [_ (p & I & _)]. now exists p. Qed.

Lemma package_version_spec md d v : package_version md d = Ret v <-> exists p, is_package md d p /\ v = p_version p.
Proof.
  unfold package_version. pose proof (find_package_spec md d) as H. split.
  - intros E. destruct (find_package md d) as [p|e|]; cbn [bind] in E; [|discriminate|discriminate].
    injection E as <-. now exists p.
  - intros (p & I & ->). destruct (find_package md d) as [q|e|]; cbn [bind].
    + now rewrite (first_such_unique _ _ _ _ H I).
    + exfalso. apply (H p I).
    + destruct H.
Qed.

Lemma versions_spec md id :
  match test_fuzz_and_afl_versions md id with
  | Ret (tv, av) => versions md id tv av
  | Err _ => ~ graph_ok md id \/ exists t, dependency md id (lit "test-fuzz") (Some t) /\ ~ graph_ok md t
  | Panic => False
  end.
Proof.
  unfold test_fuzz_and_afl_versions. pose proof (package_dependency_spec md id (lit "test-fuzz")) as H.
  destruct (package_dependency md id (lit "test-fuzz")) as [[t|]|e|]; cbn [bind map_transpose].
  - destruct H as [G D]. pose proof (package_dependency_spec md t (lit "afl")) as H.
    destruct (package_dependency md t (lit "afl")) as [a|e|]; cbn [bind].
    + destruct H as [Gt Da]. destruct (dependency_package _ _ _ _ D) as [p Ip].
      assert (Ev : package_version md t = Ret (p_version p)) by (apply package_version_spec; eauto).
      rewrite Ev. cbn [bind]. destruct a as [a|]; cbn [bind map_transpose].
      * destruct (dependency_package _ _ _ _ Da) as [q Iq].
        assert (Ew : package_version md a = Ret (p_version q)) by (apply package_version_spec; eauto).
        rewrite Ew. cbn [bind]. split; [exact G|]. exists (Some t). split; [exact D|]. split; [exact Gt|].
        split; [now exists p|]. exists (Some a). split; [exact Da|]. now exists q.
      * split; [exact G|]. exists (Some t). split; [exact D|]. split; [exact Gt|].
        split; [now exists p|]. exists None. now split.
    + right. now exists t.
    + exact H.
  - destruct H as [G D]. split; [exact G|]. exists None. now split.
  - now left.
  - exact H.
Qed.

Lemma versions_unique md id tv av tv' av' : versions md id tv av -> versions md id tv' av' -> tv = tv' /\ av = av'.
Proof.
  intros (_ & r & D & H) (_ & r' & D' & H'). rewrite <- (dependency_unique _ _ _ _ _ D D') in H'.
  destruct r as [t|]; [|destruct H as [-> ->], H' as [-> ->]; auto].
  destruct H as (_ & (p & Ip & ->) & a & Da & Ha), H' as (_ & (p' & Ip' & ->) & a' & Da' & Ha').
  rewrite <- (dependency_unique _ _ _ _ _ Da Da') in Ha'. rewrite (first_such_unique _ _ _ _ Ip Ip').
  split; [reflexivity|]. destruct a as [a|]; [|congruence].
  destruct Ha as (q & Iq & ->), Ha' as (q' & Iq' & ->). now rewrite (first_such_unique _ _ _ _ Iq Iq').
Qed.
