(** The directories of fuzz targets as the program computes them, as texts, and the places that the
    operating system finds for such texts (internal/src/dirs.rs). *)
From Coq Require Import List Ascii String Bool Arith Lia.
From Verif Require Import Base Utf8 Env Dirs Build.
Import ListNotations.

(** [PathBuf::join] (std, unix) for any argument: an absolute one replaces the path, any other is
    appended, after a slash if there is none. *)
Definition join (p s : str) : str :=
  match s with
  | c :: _ => if ascii_dec c slash then s
              else match rev p with
                   | [] => s
                   | e :: _ => if ascii_dec e slash then p ++ s else p ++ slash :: s
                   end
  | [] => match rev p with
          | [] => []
          | e :: _ => if ascii_dec e slash then p else p ++ [slash]
          end
  end.

(** internal/src/dirs.rs:110-124 [target_directory] with coverage = false, as in all its uses for
    data; [td]: the text reported by cargo metadata. *)
Definition target_text (td : str) (fuzzing : bool) : str :=
  if fuzzing then join td (lit "afl") else td.

(** internal/src/dirs.rs:62-83: the directories of the kinds of data. *)
Definition kind_text (td : str) (id : option str) (k : kind) : str :=
  match k with
  | ImplGenericArgs => join (target_text td false) (path_segment id (lit "impl_generic_args"))
  | GenericArgs => join (target_text td false) (path_segment id (lit "generic_args"))
  | Corpus => join (target_text td false) (path_segment id (lit "corpus"))
  | Output => join (target_text td true) (path_segment id (lit "output"))
  end.

(** internal/src/dirs.rs:17-19, 27-29, 37-39, 57-59. *)
Definition target_dir_text (td : str) (id : option str) (k : kind) (krate target : str) : str :=
  join (kind_text td id k) (path_from_target krate target).

(** internal/src/dirs.rs:12-14, 22-24, 32-34. *)
Definition args_dir_text (td : str) (id : option str) (k : kind) (type_name : str) : outcome str :=
  bind (path_from_args_type type_name) (fun p => Ret (join (kind_text td id k) p)).

(** internal/src/dirs.rs:42-54: [sub] is crashes, hangs or queue. *)
Definition output_subdir_text (td : str) (id : option str) (sub krate target : str) : str :=
  join (target_dir_text td id Output krate target) (lit "default/" ++ sub).

(** Path resolution (the operating system), from directory [at_]: empty components and [.] stay,
    [..] goes to the parent (that of the root is the root).  Simplification: no symbolic links; the
    directories on the way exist (as after [create_dir_all]). *)
Fixpoint resolve (at_ : path) (cs : list str) : path :=
  match cs with
  | [] => at_
  | c :: cs' => resolve (if str_eqb c [] then at_
                         else if str_eqb c (lit ".") then at_
                         else if str_eqb c (lit "..") then removelast at_
                         else at_ ++ [c]) cs'
  end.

(** The place of an absolute path. *)
Definition place (p : str) : path := resolve [] (split_slash p).

(** * Specifications *)

(** A name in a directory. *)
Definition plain (c : str) : Prop := c <> [] /\ c <> lit "." /\ c <> lit ".." /\ ~ In slash c.

(** [s] consists of the components [cs] between slashes. *)
Inductive pieces : str -> list str -> Prop :=
| pieces_one s : ~ In slash s -> pieces s [s]
| pieces_more s t cs : ~ In slash s -> pieces t cs -> pieces (s ++ slash :: t) (s :: cs).

(** * Proofs *)

Lemma pieces_split s : pieces s (split_slash s).
Proof.
  induction s as [|c s IH]; cbn [split_slash]; [apply pieces_one; intros []|].
  destruct (ascii_dec c slash) as [->|N].
  - apply (pieces_more [] s); [intros []|exact IH].
  - inversion IH as [x Hx Ex El|x t cs Hx Ht Ex El].
    + apply pieces_one. intros [E|I]; [congruence|]. now apply Hx.
    + apply (pieces_more (c :: x) t); [|exact Ht]. intros [E|I]; [congruence|]. now apply Hx.
Qed.

Lemma pieces_fun s cs : pieces s cs -> split_slash s = cs.
Proof. induction 1; [now apply split_slash_no|]. rewrite split_slash_app by assumption. now f_equal. Qed.

Lemma split_slash_nonempty s : split_slash s <> [].
Proof. destruct s as [|c s]; cbn [split_slash]; [discriminate|]. destruct (ascii_dec c slash); [discriminate|]. now destruct (split_slash s). Qed.

Lemma split_slash_cat a b : split_slash (a ++ slash :: b) = split_slash a ++ split_slash b.
Proof.
  induction a as [|c a IH]; cbn [app split_slash].
  - destruct (ascii_dec slash slash); [reflexivity|contradiction].
  - destruct (ascii_dec c slash); [now rewrite IH|]. rewrite IH.
    pose proof (split_slash_nonempty a). destruct (split_slash a) as [|l ls]; [contradiction|reflexivity].
Qed.

Lemma resolve_app a cs ds : resolve a (cs ++ ds) = resolve (resolve a cs) ds.
Proof. revert a. induction cs as [|c cs IH]; intros a; [reflexivity|]. cbn [app resolve]. now rewrite IH. Qed.

Lemma resolve_plain a cs : Forall plain cs -> resolve a cs = a ++ cs.
Proof.
  intros F. revert a. induction F as [|c cs (N1 & N2 & N3 & _) F IH]; intros a; [now rewrite app_nil_r|].
  cbn [resolve]. rewrite (proj2 (str_eqb_neq _ _) N1), (proj2 (str_eqb_neq _ _) N2), (proj2 (str_eqb_neq _ _) N3), IH.
  now rewrite <- app_assoc.
Qed.

(** Without [..], resolution goes down only. *)
Lemma resolve_down a cs : ~ In (lit "..") cs ->
  resolve a cs = a ++ filter (fun c => negb (str_eqb c []) && negb (str_eqb c (lit "."))) cs.
Proof.
  revert a. induction cs as [|c cs IH]; intros a N; [now rewrite app_nil_r|]. cbn [resolve filter].
  rewrite IH by (intros I; apply N; now right).
  destruct (str_eqb c []) eqn:E1; [reflexivity|]. destruct (str_eqb c (lit ".")) eqn:E2; [reflexivity|].
  destruct (str_eqb c (lit "..")) eqn:E3; [exfalso; apply N; left; now apply str_eqb_eq in E3|].
  cbn [negb andb]. now rewrite <- app_assoc.
Qed.

(** A relative, non-empty text. *)
Definition relative (s : str) : Prop := match s with [] => False | c :: _ => c <> slash end.

Lemma place_join p s : relative s -> place (join p s) = resolve (place p) (split_slash s).
Proof.
  intros R. destruct s as [|c s]; [contradiction|]. cbn [relative] in R. unfold join.
  destruct (ascii_dec c slash) as [|_]; [contradiction|].
  destruct (rev p) as [|e q] eqn:E.
  - apply (f_equal (@rev _)) in E. rewrite rev_involutive in E. subst p. reflexivity.
  - apply (f_equal (@rev _)) in E. rewrite rev_involutive in E. cbn [rev] in E. unfold place.
    destruct (ascii_dec e slash) as [->|N].
    + subst p. rewrite <- app_assoc. cbn [app]. rewrite split_slash_cat, resolve_app. f_equal.
      rewrite split_slash_cat, resolve_app. reflexivity.
    + rewrite split_slash_cat, resolve_app. reflexivity.
Qed.

Lemma place_path_text td : Forall plain td -> place (path_text td) = td.
Proof.
  intros F. unfold place.
  assert (G : split_slash (path_text td) = [] :: td).
  { induction F as [|c p (N1 & N2 & N3 & N4) F IH]; [reflexivity|].
    rewrite path_text_cons. cbn [split_slash]. destruct (ascii_dec slash slash); [|contradiction]. f_equal.
    destruct p as [|c' p].
    - change (path_text []) with (@nil ascii). rewrite app_nil_r. now apply split_slash_no.
    - rewrite path_text_cons in *. rewrite split_slash_app by exact N4.
      cbn [split_slash] in IH. destruct (ascii_dec slash slash); [|contradiction].
      injection IH as IH. now rewrite IH. }
  rewrite G. cbn [resolve]. change (str_eqb [] []) with true. cbn iota. now rewrite resolve_plain.
Qed.

Lemma relative_segment id k : relative (path_segment id (kind_name k)).
Proof. destruct k; discriminate. Qed.

Lemma place_kind td id k : Forall plain td ->
  place (kind_text (path_text td) id k) = resolve (kind_prefix td k) (split_slash (path_segment id (kind_name k))).
Proof.
  intros F.
  assert (A : place (join (path_text td) (lit "afl")) = td ++ [lit "afl"]).
  { rewrite place_join by discriminate. rewrite place_path_text by exact F. reflexivity. }
  destruct k; unfold kind_text, target_text;
    (rewrite place_join; [|match goal with |- relative (path_segment ?i _) => first [exact (relative_segment i ImplGenericArgs)|exact (relative_segment i GenericArgs)|exact (relative_segment i Corpus)|exact (relative_segment i Output)] end]);
    rewrite ?A, ?place_path_text by exact F; reflexivity.
Qed.

(** A text with two colons in it is neither empty nor [.] nor [..]. *)
Lemma plain_target krate target : ~ In slash krate -> ~ In slash target -> plain (path_from_target krate target).
Proof.
  intros N1 N2. unfold path_from_target. repeat split.
  - destruct (replace_char dash underscore krate); discriminate.
  - destruct (replace_char dash underscore krate) as [|a [|b l]]; discriminate.
  - destruct (replace_char dash underscore krate) as [|a [|b [|c l]]]; discriminate.
  - rewrite !in_app_iff. intros [I|[I|I]]; [|repeat (destruct I as [I|I]; [discriminate|]); destruct I|now apply N2].
    apply in_map_iff in I as (x & E & I). destruct (ascii_dec x dash); [discriminate|]. subst x. now apply N1.
Qed.

Lemma relative_plain s : plain s -> relative s.
Proof. intros (N1 & _ & _ & N4). destruct s as [|c s]; [contradiction|]. intros ->. apply N4. now left. Qed.

Lemma place_target td id k krate target :
  Forall plain td -> ~ In slash krate -> ~ In slash target ->
  place (target_dir_text (path_text td) id k krate target)
  = resolve (kind_prefix td k) (split_slash (path_segment id (kind_name k))) ++ [path_from_target krate target].
Proof.
  intros F N1 N2. pose proof (plain_target krate target N1 N2) as P. unfold target_dir_text.
  rewrite place_join by (now apply relative_plain). rewrite place_kind by exact F.
  rewrite (split_slash_no (path_from_target _ _)) by apply P. now rewrite resolve_plain by (now constructor).
Qed.

Lemma segment_plain id k : (forall i, id = Some i -> ~ In slash i) -> plain (path_segment id (kind_name k)).
Proof.
  intros H. unfold path_segment.
  assert (N : ~ In slash (match id with Some i => i | None => [] end)) by (destruct id as [i|]; [now apply H|intros []]).
  assert (M : ~ In slash (match id with Some _ => lit "_" | None => [] end)) by (destruct id; [intros [E|[]]; discriminate|intros []]).
  repeat split; try (destruct k; discriminate).
  rewrite !in_app_iff. intros [I|[I|I]]; [|now apply M|now apply N].
  destruct k; cbn in I; repeat (destruct I as [I|I]; [discriminate|]); exact I.
Qed.

Lemma place_agrees td id k krate target d :
  Forall plain td -> (forall i, id = Some i -> ~ In slash i) -> ~ In slash krate -> ~ In slash target ->
  dir_from_target td id k krate target = Ret d ->
  place (target_dir_text (path_text td) id k krate target) = d.
Proof.
  intros F I N1 N2 E. rewrite dir_from_target_eq in E.
  rewrite place_target by assumption. pose proof (segment_plain id k I) as P.
  rewrite split_slash_no by apply P. rewrite resolve_plain by (now constructor).
  injection E as <-. now rewrite <- app_assoc.
Qed.

Lemma place_args td id k tn d p :
  Forall plain td -> (forall i, id = Some i -> ~ In slash i) -> plain p -> path_from_args_type tn = Ret p ->
  dir_from_args_type td id k tn = Ret d ->
  exists t, args_dir_text (path_text td) id k tn = Ret t /\ place t = d.
Proof.
  intros F I P Ep E. unfold args_dir_text. rewrite Ep. cbn [bind]. eexists. split; [reflexivity|].
  rewrite place_join by (now apply relative_plain). rewrite place_kind by exact F.
  pose proof (segment_plain id k I) as Q.
  rewrite (split_slash_no p), (split_slash_no (path_segment _ _)) by (apply P || apply Q).
  rewrite !resolve_plain by (now constructor).
  unfold dir_from_args_type in E. rewrite Ep in E. unfold kind_directory, target_directory, pjoin in E.
  destruct k; cbn [andb bind kind_prefix] in *; injection E as <-; now rewrite <- ?app_assoc.
Qed.

Lemma place_subdir td id sub krate target d :
  Forall plain td -> (forall i, id = Some i -> ~ In slash i) -> ~ In slash krate -> ~ In slash target -> plain sub ->
  output_subdir td id sub krate target = Ret d ->
  place (output_subdir_text (path_text td) id sub krate target) = d.
Proof.
  intros F I N1 N2 P E. unfold output_subdir_text. rewrite place_join by discriminate.
  change (lit "default/" ++ sub) with (lit "default" ++ slash :: sub).
  rewrite split_slash_cat, (split_slash_no sub) by apply P.
  unfold output_subdir in E. rewrite dir_from_target_eq in E. cbn [bind] in E.
  erewrite place_agrees; try eassumption; [|apply dir_from_target_eq].
  change (split_slash (lit "default") ++ [sub]) with [lit "default"; sub].
  rewrite resolve_plain.
  - unfold pjoin in E. rewrite <- app_assoc in E. cbn [app] in E. congruence.
  - constructor; [|now constructor]. repeat split; try discriminate.
    cbn. intros J. repeat (destruct J as [J|J]; [discriminate|]). exact J.
Qed.

(** The pieces of the segment: the kind's name goes with the first piece of the id. *)
Lemma pieces_segment id k :
  split_slash (path_segment id (kind_name k))
  = match id with
    | None => [kind_name k]
    | Some i => match split_slash i with
                | [] => []
                | c :: cs => (kind_name k ++ lit "_" ++ c) :: cs
                end
    end.
Proof.
  assert (G : forall a b, ~ In slash a -> split_slash (a ++ b) = match split_slash b with [] => [] | c :: cs => (a ++ c) :: cs end).
  { intros a b. induction a as [|x a IH]; intros N; [cbn [app]; pose proof (split_slash_nonempty b); destruct (split_slash b); [contradiction|reflexivity]|].
    cbn [app split_slash]. destruct (ascii_dec x slash) as [->|]; [exfalso; apply N; now left|].
    rewrite IH by (intros J; apply N; now right). pose proof (split_slash_nonempty b). destruct (split_slash b); [contradiction|reflexivity]. }
  assert (K : ~ In slash (kind_name k)).
  { destruct k; cbn; intros J; repeat (destruct J as [J|J]; [discriminate|]); exact J. }
  destruct id as [i|]; unfold path_segment.
  - rewrite app_assoc, G. { destruct (split_slash i); [reflexivity|]. now rewrite <- app_assoc. }
    rewrite in_app_iff. intros [J|[J|[]]]; [now apply K|discriminate].
  - cbn [app]. rewrite app_nil_r. now apply split_slash_no.
Qed.

(** An id whose pieces after the first are names without colons; such are all ids without slashes. *)
Definition tame (i : str) : Prop :=
  exists c cs, pieces i (c :: cs) /\ Forall (fun x => plain x /\ ~ In colon x) cs.

Lemma pieces_inj i j cs : pieces i cs -> pieces j cs -> i = j.
Proof.
  intros P. revert j. induction P as [s H|s t cs H P IH]; intros j Q.
  - inversion Q as [x Hx Ex El|x t cs Hx Ht Ex El]; [congruence|]. subst. inversion Ht.
  - inversion Q as [x Hx Ex El|x u ds Hx Hu Ex El]; subst; [inversion P|]. now rewrite (IH u Hu).
Qed.

Lemma tame_no_slash i : ~ In slash i -> tame i.
Proof. intros N. exists i, []. split; [now constructor|constructor]. Qed.

(** What an id contributes to the segment after the kind's name, and the components after it. *)
Definition tail_of (id : option str) : str :=
  match id with None => [] | Some i => match split_slash i with [] => [] | c :: _ => underscore :: c end end.
Definition rest_of (id : option str) : list str :=
  match id with None => [] | Some i => tl (split_slash i) end.

Lemma place_tame td id k krate target :
  Forall plain td -> (forall i, id = Some i -> tame i) -> ~ In slash krate -> ~ In slash target ->
  place (target_dir_text (path_text td) id k krate target)
  = kind_prefix td k ++ (kind_name k ++ tail_of id) :: rest_of id ++ [path_from_target krate target].
Proof.
  intros F I N1 N2. rewrite place_target by assumption. rewrite pieces_segment.
  destruct id as [i|]; cbn [tail_of rest_of].
  - destruct (I i eq_refl) as (c & cs & P & G). rewrite (pieces_fun _ _ P). cbn [tl].
    rewrite resolve_plain; [now rewrite <- app_assoc|]. constructor.
    + assert (~ In slash c) by (inversion P; assumption).
      assert (~ In slash (kind_name k)).
      { destruct k; cbn; intros J; repeat (destruct J as [J|J]; [discriminate|]); exact J. }
      repeat split; try (destruct k; discriminate). rewrite !in_app_iff. intros [J|[[J|[]]|J]]; [contradiction|discriminate|contradiction].
    + eapply List.Forall_impl; [|exact G]. now intros x [? _].
  - rewrite resolve_plain; [now rewrite <- app_assoc, app_nil_r|]. constructor; [|constructor].
    pose proof (segment_plain None k) as S0. unfold path_segment in S0. cbn [app] in S0. rewrite app_nil_r in S0. apply S0. discriminate.
Qed.

Lemma colon_target krate target : In colon (path_from_target krate target).
Proof. unfold path_from_target. rewrite !in_app_iff. right. left. now left. Qed.

(** Lists of names without colons, each followed by a name with one. *)
Lemma colon_sync cs1 x1 q1 cs2 x2 q2 :
  Forall (fun x => ~ In colon x) cs1 -> Forall (fun x => ~ In colon x) cs2 -> In colon x1 -> In colon x2 ->
  cs1 ++ x1 :: q1 = cs2 ++ x2 :: q2 -> cs1 = cs2 /\ x1 = x2.
Proof.
  intros F1 F2 I1 I2. revert cs2 F2. induction F1 as [|c cs1 N F1 IH]; intros cs2 F2 E.
  - destruct F2 as [|d cs2 M F2]; cbn [app] in E; injection E as E1 E2; [now split|]. subst. contradiction.
  - destruct F2 as [|d cs2 M F2]; cbn [app] in E; injection E as E1 E2; [subst; contradiction|].
    destruct (IH cs2 F2 E2) as [-> ->]. now subst.
Qed.

Lemma rest_colon id : (forall i, id = Some i -> tame i) -> Forall (fun x => ~ In colon x) (rest_of id).
Proof.
  intros I. destruct id as [i|]; [|constructor]. destruct (I i eq_refl) as (c & cs & P & G). cbn [rest_of].
  rewrite (pieces_fun _ _ P). cbn [tl]. eapply List.Forall_impl; [|exact G]. now intros x [_ ?].
Qed.

Lemma kind_tail k1 id1 k2 id2 : kind_name k1 ++ tail_of id1 = kind_name k2 ++ tail_of id2 -> k1 = k2 /\ tail_of id1 = tail_of id2.
Proof.
  intros H.
  assert (T : forall id, tail_of id = [] \/ exists c, tail_of id = underscore :: c).
  { intros [i|]; [|now left]. cbn [tail_of]. destruct (split_slash i); [now left|]. right. eauto. }
  destruct (T id1) as [E1|[c1 E1]], (T id2) as [E2|[c2 E2]]; rewrite E1, E2 in *;
    destruct k1, k2; cbn in H; try discriminate H; (split; [reflexivity|]); try reflexivity; congruence.
Qed.

Lemma tail_rest_inj id1 id2 :
  (forall i, id1 = Some i -> tame i) -> (forall i, id2 = Some i -> tame i) ->
  tail_of id1 = tail_of id2 -> rest_of id1 = rest_of id2 -> id1 = id2.
Proof.
  intros I1 I2 E1 E2. destruct id1 as [i1|], id2 as [i2|]; [| | |reflexivity].
  - destruct (I1 i1 eq_refl) as (c1 & cs1 & P1 & _), (I2 i2 eq_refl) as (c2 & cs2 & P2 & _).
    cbn [tail_of rest_of] in *. rewrite (pieces_fun _ _ P1), (pieces_fun _ _ P2) in *. cbn [tl] in *.
    injection E1 as E1. subst. f_equal. eapply pieces_inj; eassumption.
  - cbn [tail_of] in E1. pose proof (split_slash_nonempty i1). destruct (split_slash i1); [contradiction|discriminate].
  - cbn [tail_of] in E1. pose proof (split_slash_nonempty i2). destruct (split_slash i2); [contradiction|discriminate].
Qed.

Lemma afl_tail id k : lit "afl" <> kind_name k ++ tail_of id.
Proof. destruct k; discriminate. Qed.

Lemma places_disjoint td id1 k1 c1 t1 id2 k2 c2 t2 p :
  Forall plain td -> (forall i, id1 = Some i -> tame i) -> (forall i, id2 = Some i -> tame i) ->
  (forall x, In x [c1; t1; c2; t2] -> ~ In slash x) -> ~ In colon c1 -> ~ In colon c2 ->
  under (place (target_dir_text (path_text td) id1 k1 c1 t1)) p ->
  under (place (target_dir_text (path_text td) id2 k2 c2 t2)) p ->
  id1 = id2 /\ k1 = k2 /\ replace_char dash underscore c1 = replace_char dash underscore c2 /\ t1 = t2.
Proof.
  intros F I1 I2 N C1 C2. rewrite !place_tame; try assumption; try (apply N; cbn; tauto).
  intros (q1 & ->) (q2 & E). rewrite <- !app_assoc in E. cbn [app] in E. rewrite <- !app_assoc in E. cbn [app] in E.
  assert (L : List.length (kind_prefix td k1) = List.length (kind_prefix td k2)).
  { destruct k1, k2; cbn [kind_prefix] in *; try reflexivity; exfalso;
      rewrite <- ?app_assoc in E; apply app_inv_head in E; cbn [app] in E; apply (f_equal (hd [])) in E; cbn [hd] in E;
      first [ exact (afl_tail id2 _ E) | exact (afl_tail id1 _ (eq_sym E)) ]. }
  destruct (app_inv_head_len _ _ _ _ L E) as [_ E2]. injection E2 as E2 E3.
  apply kind_tail in E2 as [-> E2].
  destruct (colon_sync _ _ _ _ _ _ (rest_colon id1 I1) (rest_colon id2 I2) (colon_target c1 t1) (colon_target c2 t2) E3) as [E4 E5].
  split; [now apply tail_rest_inj|]. split; [reflexivity|].
  now apply path_from_target_inj.
Qed.
