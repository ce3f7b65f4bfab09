(** Theorems about the tests that versions and requirements belong together (C122). *)
From Coq Require Import Ascii String List Bool Arith NArith Lia.
From Verif Require Import Base Decimal Semver SemverText Versions PropsSemverText.
Import ListNotations.
Local Open Scope N_scope.

(** * Specification *)

(** The order of three numbers. *)
Definition before (x y : N * N * N) : Prop :=
  let '(a, b, c) := x in let '(a', b', c') := y in
  a < a' \/ (a = a' /\ (b < b' \/ (b = b' /\ c < c'))).
Definition numbers (v : tversion) : N * N * N := (t_major v, t_minor v, t_patch v).

(** The first release with the given numbers, and the first one after all of them. *)
Definition lowest (a : N) (b c : option N) : N * N * N :=
  (a, match b with Some b => b | None => 0 end, match b, c with Some _, Some c => c | _, _ => 0 end).
Definition next (a : N) (b c : option N) : N * N * N :=
  match b, c with
  | None, _ => (a + 1, 0, 0)
  | Some b, None => (a, b + 1, 0)
  | Some b, Some c => (a, b, c + 1)
  end.
(** The first release that is incompatible with the given numbers. *)
Definition incompatible (a : N) (b c : option N) : N * N * N :=
  match a, b, c with
  | 0, Some 0, Some c => (0, 0, c + 1)
  | 0, Some b, _ => (0, b + 1, 0)
  | _, _, _ => (a + 1, 0, 0)
  end.

(** Which releases an operator with these numbers admits, as documented by Cargo. *)
Definition admits (o : rop) (a : N) (b c : option N) (v : N * N * N) : Prop :=
  let low := lowest a b c in
  match o with
  | RExact | RWildcard => ~ before v low /\ before v (next a b c)
  | RGreater => ~ before v (next a b c)
  | RGreaterEq => ~ before v low
  | RLess => before v low
  | RLessEq => before v (next a b c)
  | RTilde => ~ before v low /\ before v (match b with Some b => (a, b + 1, 0) | None => (a + 1, 0, 0) end)
  | RCaret => ~ before v low /\ before v (incompatible a b c)
  end.

(** A comparator without a patch number has no prerelease, and no patch number without a minor
    one (semver). *)
Definition sensible (c : rcomp) : Prop := (r_minor c = None -> r_patch c = None) /\ (r_patch c = None -> r_pre c = []).

(** The same up to build metadata. *)
Definition same_release (v w : tversion) : Prop :=
  t_major v = t_major w /\ t_minor v = t_minor w /\ t_patch v = t_patch w /\ t_pre v = t_pre w.

(** The dependencies that the test looks at. *)
Definition looked_at (d : dependency) : Prop := (exists s, d_name d = lit "test-fuzz" ++ s) /\ d_kind d <> DDevelopment.

(** * Proofs *)

Ltac decide_numbers :=
  repeat match goal with
  | |- context [?x =? ?y] => destruct (N.eqb_spec x y)
  | |- context [?x <? ?y] => destruct (N.ltb_spec x y)
  | |- context [?x <=? ?y] => destruct (N.leb_spec x y)
  end.

Lemma comp_release c v : sensible c -> r_pre c = [] -> t_pre v = [] ->
  (comp_matches c v = true <-> admits (r_op c) (r_major c) (r_minor c) (r_patch c) (numbers v)).
Proof.
  destruct c as [o a b p pre], v as [x y z q w]. unfold sensible. cbn [r_op r_major r_minor r_patch r_pre t_pre]. intros [S1 _] -> ->.
  unfold comp_matches, exact, greater, less, beyond, tilde, caret, same_number, admits, numbers, lowest, next, before.
  cbn [r_op r_major r_minor r_patch r_pre t_pre t_major t_minor t_patch c_major c_minor c_patch c_pre tpre_cmp geb].
  destruct (list_eq_dec str_dec [] []) as [_|K]; [|now destruct K].
  assert (I : forall b p, (b = None -> p = None) -> before (x, y, z) (incompatible a b p) <->
    match b with
    | None => x < a + 1
    | Some b => if 0 <? a then x < a + 1
                else match p with
                     | None => x = 0 /\ y < b + 1
                     | Some p => x = 0 /\ (if 0 <? b then y < b + 1 else y = 0 /\ z < p + 1)
                     end
    end).
  { clear. intros b p S1. unfold incompatible, before. destruct a as [|a'], b as [b|].
    - destruct b as [|b'], p as [p|]; cbn [N.ltb N.compare]; lia.
    - lia.
    - change (0 <? N.pos a') with true. cbv iota. lia.
    - lia. }
  destruct b as [b|]; [|rewrite (S1 eq_refl) in *]; [destruct p as [p|]|];
  (destruct o; cbn [negb];
   try (match goal with |- context [incompatible ?a ?b ?p] => pose proof (I b p) as J; unfold before in J; rewrite (J ltac:(congruence)) end);
   clear I; decide_numbers; cbn [negb andb orb]; (split; [intros K; try discriminate K|intros K; try reflexivity; exfalso]); lia).
Qed.

Lemma join_head sep (x : str) l : exists t, join sep (x :: l) = x ++ t.
Proof. destruct l as [|y l]; [exists []; cbn; now rewrite ?app_nil_r|]. cbn [join]. eauto. Qed.

Lemma req_equal r : starts_with (lit "=") (show_req r) = true <-> exists c r', r = c :: r' /\ r_op c = RExact.
Proof.
  rewrite starts_with_spec. destruct r as [|c r].
  { split; [intros [t K]; discriminate K|]. intros (c & r' & K & _). discriminate K. }
  destruct (join_head (lit ", ") (show_comp c) (map show_comp r)) as [t E].
  assert (Q : show_req (c :: r) = show_comp c ++ t) by exact E. rewrite Q. clear E Q.
  split.
  - intros [s E]. exists c, r. split; [reflexivity|]. unfold show_comp in E. destruct (r_op c); try reflexivity; try discriminate E. exfalso.
    cbn [show_op app] in E. destruct (dec_numeral (r_major c)) as (N0 & F & _). destruct (dec (r_major c)) as [|x d]; [now destruct N0|].
    inversion F as [|? ? D _]; subst. cbn [app] in E. injection E as E _. subst x. unfold is_digit in D. cbn in D. lia.
  - intros (c' & r' & E & O). injection E as <- <-. unfold show_comp. rewrite O. cbn [show_op]. eexists. rewrite <- !app_assoc. reflexivity.
Qed.

Lemma checked_spec d : checked d = true <-> looked_at d.
Proof.
  unfold checked, looked_at. rewrite andb_true_iff, starts_with_spec, negb_true_iff. destruct (d_kind d); cbn [development]; split; intros [A B]; split; auto; try discriminate; congruence.
Qed.

Lemma first_failure_spec {A} (f : A -> outcome bool) l :
  (forall x, In x l -> exists b, f x = Ret b) ->
  exists b, first_failure f l = Ret b /\ (b = true <-> Forall (fun x => f x = Ret true) l).
Proof.
  induction l as [|x l IH]; intros H; cbn [first_failure].
  - exists true. split; [reflexivity|]. split; [constructor|reflexivity].
  - destruct (H x (or_introl eq_refl)) as [b E]. rewrite E. cbn [bind]. destruct b.
    + destruct (IH (fun y I => H y (or_intror I))) as (b & E' & S0). exists b. split; [exact E'|]. rewrite S0. split.
      * intros F. constructor; auto.
      * intros F. now inversion F.
    + exists false. split; [reflexivity|]. split; [discriminate|]. intros F. inversion F; congruence.
Qed.

(** C122: what an operator admits among releases is what Cargo documents, for any numbers given. *)
Theorem C122_operators :
  forall (c : rcomp) (v : tversion), sensible c -> r_pre c = [] -> t_pre v = [] ->
    (comp_matches c v = true <-> admits (r_op c) (r_major c) (r_minor c) (r_patch c) (numbers v)).
Proof. exact comp_release. Qed.
Print Assumptions C122_operators.

(** C122: a requirement admits a prerelease only if it mentions a prerelease with the same numbers. *)
Theorem C122_prereleases :
  forall (r : list rcomp) (v : tversion), t_pre v <> [] -> req_admits r v = true ->
    exists c, In c r /\ r_major c = t_major v /\ r_minor c = Some (t_minor v) /\ r_patch c = Some (t_patch v) /\ r_pre c <> [].
Proof.
  intros r v N0 H. unfold req_admits in H. apply andb_true_iff in H as [_ H]. destruct (t_pre v) as [|w l]; [now destruct N0|].
  apply existsb_exists in H as (c & I & H). exists c. split; [exact I|]. unfold compatible_pre in H. rewrite !andb_true_iff in H. destruct H as (((A & B) & C) & D).
  apply N.eqb_eq in A. destruct (r_minor c) as [m|]; [|discriminate B]. apply N.eqb_eq in B. destruct (r_patch c) as [p|]; [|discriminate C]. apply N.eqb_eq in C.
  destruct (r_pre c); [discriminate D|]. subst. repeat split; auto; discriminate.
Qed.
Print Assumptions C122_prereleases.

(** C122: the first test succeeds exactly if all packages but serde_combinators have the version of
    test-fuzz, build metadata included. *)
Theorem C122_equal :
  forall (cur : tversion) (ps : list package), well_formed cur -> Forall (fun p => well_formed (k_version p)) ps ->
    (versions_are_equal (show cur) ps = true <->
     forall p, In p ps -> k_name p <> lit "serde_combinators" -> k_version p = cur).
Proof.
  intros cur ps W F. rewrite Forall_forall in F. unfold versions_are_equal. rewrite forallb_forall. split.
  - intros H p I N0. specialize (H p I). apply orb_true_iff in H as [H|H]; apply str_eqb_eq in H; [congruence|].
    symmetry. now apply C120_injective; auto.
  - intros H p I. apply orb_true_iff. destruct (str_eqb (k_name p) (lit "serde_combinators")) eqn:E; [now left|right].
    apply str_eqb_eq. f_equal. symmetry. apply H; [exact I|]. intros K. rewrite K in E. discriminate E.
Qed.
Print Assumptions C122_equal.

(** C122: the second test does not panic, and it succeeds exactly if the first operator of every
    requirement it looks at is [=], and the requirement admits the version of test-fuzz. *)
Theorem C122_exact_and_match :
  forall (cur : tversion) (ps : list package), well_formed cur ->
    exists b, versions_are_exact_and_match (show cur) ps = Ret b /\
      (b = true <->
       forall p d, In p ps -> In d (k_deps p) -> looked_at d ->
         (exists c r, d_req d = c :: r /\ r_op c = RExact) /\ req_admits (d_req d) cur = true).
Proof.
  intros cur ps W. destruct C120_round_trip as (_ & _ & R). pose proof (R cur W) as P.
  assert (D : forall d, exists b, dep_ok (show cur) d = Ret b /\
    (b = true <-> (looked_at d -> (exists c r, d_req d = c :: r /\ r_op c = RExact) /\ req_admits (d_req d) cur = true))).
  { intros d. unfold dep_ok. rewrite P. pose proof (checked_spec d) as C. destruct (checked d).
    - pose proof (req_equal (d_req d)) as E. destruct (starts_with (lit "=") (show_req (d_req d))).
      + eexists. split; [reflexivity|]. tauto.
      + exists false. split; [reflexivity|]. split; [discriminate|]. intros H. apply E. now apply H, C.
    - exists true. split; [reflexivity|]. split; [intros _ L; apply C in L; discriminate L|reflexivity]. }
  assert (K : forall p, exists b, first_failure (dep_ok (show cur)) (k_deps p) = Ret b /\ (b = true <-> Forall (fun d => dep_ok (show cur) d = Ret true) (k_deps p))).
  { intros p. apply first_failure_spec. intros d _. destruct (D d) as (b & E & _). eauto. }
  unfold versions_are_exact_and_match.
  destruct (first_failure_spec (fun p => first_failure (dep_ok (show cur)) (k_deps p)) ps) as (b & E & S0).
  { intros p _. destruct (K p) as (b & E & _). eauto. }
  exists b. split; [exact E|]. rewrite S0, Forall_forall. split.
  - intros H p d Ip Id L. specialize (H p Ip). destruct (K p) as (b' & E' & S'). assert (b' = true) by congruence. subst b'.
    destruct S' as [S' _]. specialize (S' eq_refl). rewrite Forall_forall in S'. specialize (S' d Id).
    destruct (D d) as (b' & E2 & S2). assert (b' = true) by congruence. subst b'. now apply S2.
  - intros H p Ip. destruct (K p) as (b' & E' & S'). rewrite E'. f_equal. apply S'. rewrite Forall_forall. intros d Id.
    destruct (D d) as (b2 & E2 & S2). rewrite E2. f_equal. apply S2. intros L. exact (H p d Ip Id L).
Qed.
Print Assumptions C122_exact_and_match.

(** C122: if such a requirement has all three numbers, it admits no other version, up to build
    metadata; so it has to be changed with every new version. *)
Theorem C122_only :
  forall (cur w : tversion) (c : rcomp) (r : list rcomp) (m p : N),
    r_op c = RExact -> r_minor c = Some m -> r_patch c = Some p ->
    req_admits (c :: r) cur = true -> req_admits (c :: r) w = true -> same_release w cur.
Proof.
  intros cur w c r m p O Em Ep H1 H2.
  assert (G : forall v, req_admits (c :: r) v = true -> t_major v = r_major c /\ t_minor v = m /\ t_patch v = p /\ t_pre v = r_pre c).
  { intros v H. unfold req_admits in H. apply andb_true_iff in H as [H _]. cbn [forallb] in H. apply andb_true_iff in H as [H _].
    unfold comp_matches, exact in H. rewrite O, Em, Ep in H. cbn [same_number] in H. rewrite !andb_true_iff, !N.eqb_eq in H.
    destruct (list_eq_dec str_dec (t_pre v) (r_pre c)); [tauto|]. destruct H as [_ H]. discriminate H. }
  destruct (G cur H1) as (A1 & A2 & A3 & A4), (G w H2) as (B1 & B2 & B3 & B4). unfold same_release. repeat split; congruence.
Qed.
Print Assumptions C122_only.

(** C122: with fewer numbers the test succeeds as well, although its message says that the
    requirement is exact: for every release with a given major number, [=] and that number passes,
    and admits every other release with it. *)
Theorem C122_not_exact_refuted :
  forall cur : tversion, well_formed cur -> t_pre cur = [] ->
    exists (p : package) (d : dependency),
      In d (k_deps p) /\ looked_at d /\ versions_are_exact_and_match (show cur) [p] = Ret true /\
      forall w, t_pre w = [] -> t_major w = t_major cur -> req_admits (d_req d) w = true.
Proof.
  intros cur W P. set (d := mkd (lit "test-fuzz-macro") [mkr RExact (t_major cur) None None []] DNormal).
  assert (A : forall w, t_pre w = [] -> t_major w = t_major cur -> req_admits (d_req d) w = true).
  { intros w Pw M. unfold req_admits, comp_matches, exact. cbn [d_req d forallb r_op r_major r_minor r_patch r_pre same_number]. rewrite Pw, M, N.eqb_refl. reflexivity. }
  assert (L : looked_at d) by (split; [now exists (lit "-macro")|discriminate]).
  exists (mkpk (lit "test-fuzz") cur [d]), d. split; [now left|]. split; [exact L|]. split; [|exact A].
  destruct (C122_exact_and_match cur [mkpk (lit "test-fuzz") cur [d]] W) as (b & E & S0). rewrite E. f_equal. apply S0.
  intros p d' [<-|[]] [<-|[]] _. split; [now repeat eexists|]. now apply A.
Qed.
Print Assumptions C122_not_exact_refuted.

(** C122: how requirements are written: those of several parts with commas, one without any as an
    asterisk, each part with its operator and its numbers. *)
Theorem C122_text :
  show_req [] = lit "*" /\
  (forall c, show_req [c] = show_comp c) /\
  (forall c c' r, show_req (c :: c' :: r) = show_comp c ++ lit ", " ++ show_req (c' :: r)) /\
  (forall op text a b c, In (op, text) [(RExact, "="); (RGreater, ">"); (RGreaterEq, ">="); (RLess, "<"); (RLessEq, "<="); (RTilde, "~"); (RCaret, "^")]%string ->
     show_comp (mkr op a None None []) = lit text ++ dec a /\
     show_comp (mkr op a (Some b) None []) = lit text ++ dec a ++ lit "." ++ dec b /\
     show_comp (mkr op a (Some b) (Some c) []) = lit text ++ dec a ++ lit "." ++ dec b ++ lit "." ++ dec c /\
     forall p, show_comp (mkr op a (Some b) (Some c) [p]) = lit text ++ dec a ++ lit "." ++ dec b ++ lit "." ++ dec c ++ lit "-" ++ p) /\
  (forall a b, show_comp (mkr RWildcard a None None []) = dec a ++ lit ".*" /\ show_comp (mkr RWildcard a (Some b) None []) = dec a ++ lit "." ++ dec b ++ lit ".*").
Proof.
  split; [reflexivity|]. split; [intros c; unfold show_req; cbn; try rewrite app_nil_r; reflexivity|]. split; [reflexivity|]. split.
  - intros op text a b c I. unfold show_comp. cbn [r_op r_major r_minor r_patch r_pre].
    cbn [In] in I. repeat destruct I as [I|I]; try contradiction; injection I as <- <-; cbn [show_op]; change dot with (lit "."); repeat split; intros; rewrite ?app_nil_r; try reflexivity; cbn [join]; rewrite ?app_nil_r; reflexivity.
  - intros a b. unfold show_comp. cbn [r_op r_major r_minor r_patch show_op app]. change dot with (lit "."). split; reflexivity.
Qed.
Print Assumptions C122_text.

Example C122_example :
  let v n := mkt 8 1 n [] [] in
  let full n := [mkr RExact 8 (Some 1) (Some n) []] in
  let macro r k := mkpk (lit "test-fuzz") (v 1) [mkd (lit "test-fuzz-macro") r k; mkd (lit "serde") [mkr RCaret 1 (Some 0) None []] DNormal] in
  let other := mkpk (lit "serde_combinators") (mkt 0 1 0 [] []) [] in
  show_req (full 1) = lit "=8.1.1" /\
  show_req [mkr RGreaterEq 1 (Some 2) None []; mkr RLess 2 None None []] = lit ">=1.2, <2" /\
  show_req [mkr RWildcard 1 None None []] = lit "1.*" /\
  versions_are_equal (lit "8.1.1") [macro (full 1) DNormal; other] = true /\
  versions_are_equal (lit "8.1.2") [macro (full 1) DNormal; other] = false /\
  versions_are_exact_and_match (lit "8.1.1") [macro (full 1) DNormal; other] = Ret true /\
  versions_are_exact_and_match (lit "8.1.2") [macro (full 1) DNormal; other] = Ret false /\
  versions_are_exact_and_match (lit "8.1.2") [macro (full 1) DDevelopment; other] = Ret true /\
  versions_are_exact_and_match (lit "8.1.1") [macro [mkr RCaret 8 (Some 1) (Some 1) []] DBuild] = Ret false.
Proof. vm_compute. repeat split. Qed.
