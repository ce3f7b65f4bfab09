(** What the repository's tests of its own texts check (test-fuzz/tests/integration/ci.rs). *)
From Coq Require Import List Ascii String Bool Arith NArith Lia Sorted.
From Verif Require Import Base Utf8 Semver GenericTest InstallTest.
Import ListNotations.
Local Open Scope nat_scope.

(** * Tables of dependencies *)

(** [&text[a..b]] (std), for [a <= b <= text.len()].  Simplification: the bounds used below
    are at the ends of characters. *)
Definition slice (a b : nat) (s : str) : str := firstn (b - a) (skipn a s).
Definition at_lf (s : str) (i : nat) : bool := match nth_error s i with Some c => Ascii.eqb c LF | None => false end.

(** test-fuzz/tests/integration/ci.rs:265-276 [group_starts]. *)
Definition group_starts (doc : str) (lo hi : nat) : list nat :=
  let raw := slice lo hi doc in
  map (fun i => lo + i)
      (filter (fun i => at_lf raw (i - 2) && at_lf raw (i - 1) && negb (at_lf raw i)) (seq 2 (List.length raw - 2))).

(** test-fuzz/tests/integration/ci.rs:250-263 [groups]. *)
Fixpoint cuts (start : nat) (starts : list nat) (hi : nat) : list (nat * nat) :=
  match starts with
  | [] => [(start, hi)]
  | p :: starts' => (start, p) :: cuts p starts' hi
  end.
Definition groups (doc : str) (lo hi : nat) : list (nat * nat) := cuts lo (group_starts doc lo hi) hi.

(** [Iterator::is_sorted] (std) on texts. *)
Fixpoint is_sorted (l : list str) : bool :=
  match l with
  | x :: (y :: _) as l' => match str_cmp x y with Gt => false | _ => is_sorted l' end
  | _ => true
  end.

(** test-fuzz/tests/integration/ci.rs:235-248 [key_value_pairs_are_sorted]; [keys]: the keys of
    a text, as toml_edit reads it (external; [None]: it is not a document). *)
Section Keys.
  Variable keys : str -> option (list str).
  Fixpoint all_sorted (doc : str) (gs : list (nat * nat)) : outcome bool :=
    match gs with
    | [] => Ret true
    | (a, b) :: gs' =>
        match keys (slice a b doc) with
        | None => Panic
        | Some ks => if is_sorted ks then all_sorted doc gs' else Ret false
        end
    end.
  Definition pairs_are_sorted (doc : str) (lo hi : nat) : outcome bool := all_sorted doc (groups doc lo hi).
End Keys.

(** * The report on suppliers *)

(** serde_json's values.  A leaf is a null, a boolean, a number or a string.  An object's keys
    are in order and distinct (serde_json without preserve_order). *)
Inductive json := JLeaf (text : str) | JArr (l : list json) | JObj (l : list (str * json)).

(** test-fuzz/tests/integration/ci.rs:314-335 [remove_avatars]. *)
Fixpoint remove_avatars (v : json) : json :=
  match v with
  | JLeaf t => JLeaf t
  | JArr l => JArr (map remove_avatars l)
  | JObj l =>
      JObj ((fix retain (l : list (str * json)) :=
               match l with
               | [] => []
               | (k, v) :: l' => if str_eqb k (lit "avatar") then retain l' else (k, remove_avatars v) :: retain l'
               end) l)
  end.
Definition retain (l : list (str * json)) : list (str * json) :=
  map (fun kv => (fst kv, remove_avatars (snd kv))) (filter (fun kv => negb (str_eqb (fst kv) (lit "avatar"))) l).

(** * The readme *)

(** What follows the first [\]] of a text, if there is one, and what precedes it. *)
Fixpoint closing (s : str) : option (str * str) :=
  match s with
  | [] => None
  | c :: s' => if Ascii.eqb c "]" then Some ([], s') else match closing s' with Some (b, r) => Some (c :: b, r) | None => None end
  end.
(** The expression [\[[^\]]*\]] and one more character, at the beginning of a text; what it
    matches without the character. *)
Definition bracketed (next : ascii) (s : str) : option str :=
  match s with
  | c :: s' =>
      if Ascii.eqb c "["
      then match closing s' with
           | Some (b, d :: _) => if Ascii.eqb d next then Some (lit "[" ++ b ++ lit "]") else None
           | _ => None
           end
      else None
  | [] => None
  end.
Definition found {A} (x : option A) : bool := match x with Some _ => true | None => false end.
Fixpoint anywhere (f : str -> bool) (s : str) : bool := f s || match s with _ :: s' => anywhere f s' | [] => false end.

(** test-fuzz/tests/integration/ci.rs:148-154 [readme_does_not_use_inline_links]. *)
Definition no_inline_links (readme : str) : bool := negb (anywhere (fun s => found (bracketed "(" s)) readme).

(** test-fuzz/tests/integration/ci.rs:157-167 [readme_reference_links_are_sorted]. *)
Definition links (readme : str) : list str := filter (fun l => found (bracketed ":" l)) (lines readme).
Definition links_are_sorted (readme : str) : bool := if list_eq_dec str_dec (sort (links readme)) (links readme) then true else false.

(** test-fuzz/tests/integration/ci.rs:171-173: the matches of [(?m)^(\[[^\]]*\]):], which do not
    overlap, from left to right (the regex crate, external): their offsets, and the labels.
    [skip]: how much of the last match is left; [start]: whether a line begins here. *)
Fixpoint definitions (skip : nat) (start : bool) (i : nat) (s : str) : list (nat * str) :=
  match s with
  | [] => []
  | c :: s' =>
      match skip with
      | S k => definitions k (Ascii.eqb c LF) (S i) s'
      | O => match (if start then bracketed ":" s else None) with
             | Some label => (i, label) :: definitions (List.length label) (Ascii.eqb c LF) (S i) s'
             | None => definitions 0 (Ascii.eqb c LF) (S i) s'
             end
      end
  end.
(** test-fuzz/tests/integration/ci.rs:170-182 [readme_reference_links_are_used]. *)
Definition links_are_used (readme : str) : bool :=
  forallb (fun d => contains (snd d) (firstn (fst d) readme)) (definitions 0 true 0 readme).

(** test-fuzz/tests/integration/ci.rs:124-145 [readme_contains_usage]: [out] is the stdout of the
    command with --help. *)
Definition usage (out : str) : str := List.concat (skipn 2 (split_inclusive out)).
Definition contains_usage (readme : str) (out : bytes) : outcome bool := if valid_utf8 out then Ret (contains (usage out) readme) else Panic.

(** * Licenses *)

(** [\b] of the regex crate (external).  Simplification: only ASCII letters, digits and [_] are
    in words. *)
Definition wordy (c : option ascii) : bool := match c with Some c => in_word c | None => false end.
Definition boundary (prev : option ascii) (s : str) : bool := xorb (wordy prev) (wordy (hd_error s)).
(** An alternative, in which a dot stands for any character. *)
Fixpoint literally (w s : str) (prev : option ascii) : option (option ascii * str) :=
  match w, s with
  | [], _ => Some (prev, s)
  | c :: w', d :: s' => if Ascii.eqb c "." || Ascii.eqb c d then literally w' s' (Some d) else None
  | _, _ => None
  end.
Definition allowed_licenses : list str :=
  [lit "Apache-2.0"; lit "BSD-2-Clause"; lit "BSD-3-Clause"; lit "ISC"; lit "MIT"; lit "Zlib"; lit "N/A"].
Definition license_here (prev : option ascii) (s : str) : bool :=
  boundary prev s &&
  existsb (fun w => match literally w s prev with Some (prev', r) => boundary prev' r | None => false end) allowed_licenses.
Fixpoint license_found (prev : option ascii) (s : str) : bool :=
  license_here prev s || match s with c :: s' => negb (Ascii.eqb c ":") && license_found (Some c) s' | [] => false end.
(** test-fuzz/tests/integration/ci.rs:62-86 [license]: [out] is what [cargo license] (external)
    prints. *)
Definition own_license : str :=
  lit "AGPL-3.0 WITH mif-exception (5): cargo-test-fuzz, test-fuzz, test-fuzz-internal, test-fuzz-macro, test-fuzz-runtime".
Definition license_test (out : bytes) : outcome bool :=
  if valid_utf8 out then Ret (forallb (fun l => str_eqb l own_license || license_found None l) (lines out)) else Panic.

(** test-fuzz/tests/integration/ci.rs:360-362 [enabled]. *)
Definition bless (value : option str) : bool := match value with Some v => negb (str_eqb v (lit "0")) | None => false end.
(** test-fuzz/tests/integration/ci.rs:296-311 [supply_chain]: the contents of supply_chain.json
    afterwards, given the variable BLESS, the contents before ([None]: it cannot be read) and the
    normalized output.  Simplification: the file can be written. *)
Definition supply_chain (value : option str) (stored : option str) (normalized : str) : outcome str :=
  if bless value then Ret normalized
  else match stored with Some s => if str_eqb s normalized then Ret s else Panic | None => Panic end.

(** * Specification *)

(** A text is cut where a line begins after blank lines, and nowhere else. *)
Definition cut_at_blanks (s : str) (pieces : list str) : Prop :=
  List.concat pieces = s /\
  (forall i p q, nth_error pieces i = Some p -> nth_error pieces (S i) = Some q ->
     (exists t, p = t ++ [LF; LF]) /\ exists c r, q = c :: r /\ c <> LF) /\
  (forall p a c b, In p pieces -> c <> LF -> p <> a ++ LF :: LF :: c :: b).

(** The part of a value to which a path leads. *)
Inductive step := Item (i : nat) | Key (k : str).
Fixpoint lookup (k : str) (l : list (str * json)) : option json :=
  match l with [] => None | (k', v) :: l' => if str_eqb k' k then Some v else lookup k l' end.
Fixpoint at_path (v : json) (p : list step) : option json :=
  match p, v with
  | [], _ => Some v
  | Item i :: p', JArr l => match nth_error l i with Some w => at_path w p' | None => None end
  | Key k :: p', JObj l => match lookup k l with Some w => at_path w p' | None => None end
  | _, _ => None
  end.

(** What can be seen of a value without looking into it, apart from avatars. *)
Inductive view := SLeaf (t : str) | SArr (n : nat) | SObj (keys : list str).
Definition look (v : json) : view :=
  match v with
  | JLeaf t => SLeaf t
  | JArr l => SArr (List.length l)
  | JObj l => SObj (filter (fun k => negb (str_eqb k (lit "avatar"))) (map fst l))
  end.

(** The keys of every object are distinct. *)
Inductive distinct_keys : json -> Prop :=
| dk_leaf t : distinct_keys (JLeaf t)
| dk_arr l : Forall distinct_keys l -> distinct_keys (JArr l)
| dk_obj l : NoDup (map fst l) -> Forall (fun kv => distinct_keys (snd kv)) l -> distinct_keys (JObj l).

(** A definition of a label in a text: it begins a line. *)
Definition defines (readme before label : str) : Prop :=
  exists b after, label = lit "[" ++ b ++ lit "]" /\ ~ In "]"%char b /\ readme = before ++ label ++ lit ":" ++ after /\
    (before = [] \/ exists t, before = t ++ [LF]).

(** * Proofs *)

Lemma retain_eq l :
  (fix retain (l : list (str * json)) :=
     match l with
     | [] => []
     | (k, v) :: l' => if str_eqb k (lit "avatar") then retain l' else (k, remove_avatars v) :: retain l'
     end) l = retain l.
Proof. induction l as [|[k v] l IH]; [reflexivity|]. unfold retain. cbn [filter fst snd map]. destruct (str_eqb k (lit "avatar")); cbn [negb map fst snd]; rewrite IH; reflexivity. Qed.
Lemma remove_obj l : remove_avatars (JObj l) = JObj (retain l).
Proof. cbn [remove_avatars]. now rewrite retain_eq. Qed.

Lemma json_ind' (P : json -> Prop) :
  (forall t, P (JLeaf t)) -> (forall l, Forall P l -> P (JArr l)) -> (forall l, Forall (fun kv => P (snd kv)) l -> P (JObj l)) -> forall v, P v.
Proof.
  intros H1 H2 H3. fix IH 1. intros [t|l|l]; [apply H1|apply H2|apply H3].
  - induction l as [|v l IHl]; constructor; auto.
  - induction l as [|[k v] l IHl]; constructor; auto.
Qed.

Lemma lookup_retain k l : lookup k (retain l) = if str_eqb k (lit "avatar") then None else option_map remove_avatars (lookup k l).
Proof.
  unfold retain. induction l as [|[k' v] l IH]; [now destruct (str_eqb k (lit "avatar"))|]. cbn [filter fst].
  destruct (str_eqb k' (lit "avatar")) eqn:A; cbn [negb map fst snd lookup].
  - rewrite IH. destruct (str_eqb k (lit "avatar")) eqn:B; [reflexivity|]. destruct (str_eqb k' k) eqn:C; [|reflexivity].
    apply str_eqb_eq in C. subst k'. congruence.
  - destruct (str_eqb k' k) eqn:C; [|exact IH]. apply str_eqb_eq in C. subst k'. now rewrite A.
Qed.

Lemma slice_nth a b s i : i < b - a -> nth_error (slice a b s) i = nth_error s (a + i).
Proof.
  unfold slice. intros L. revert s b L. induction a as [|a IH]; intros s b L.
  - cbn [skipn]. rewrite Nat.sub_0_r in *. cbn [Nat.add]. revert s i L. induction b as [|b IHb]; intros s i L; [lia|]. destruct s as [|c s]; [now destruct i|]. destruct i as [|i]; [reflexivity|]. cbn [firstn nth_error]. apply IHb. lia.
  - destruct s as [|c s]; [rewrite skipn_nil, firstn_nil; now destruct i|]. cbn [skipn Nat.add nth_error]. destruct b as [|b]; [lia|]. cbn [Nat.sub] in *. now apply IH.
Qed.
Lemma slice_length a b s : a <= b <= List.length s -> List.length (slice a b s) = b - a.
Proof. intros L. unfold slice. rewrite firstn_length, skipn_length. lia. Qed.
Lemma skipn_twice {A} n m (s : list A) : skipn n (skipn m s) = skipn (n + m) s.
Proof.
  revert s. induction m as [|m IH]; intros s; [now rewrite Nat.add_0_r|]. destruct s as [|c s]; [now rewrite !skipn_nil|].
  rewrite Nat.add_succ_r. cbn [skipn]. apply IH.
Qed.
Lemma slice_join a b c s : a <= b <= c -> slice a b s ++ slice b c s = slice a c s.
Proof.
  intros L. unfold slice. replace (c - a) with ((b - a) + (c - b)) by lia.
  assert (E : skipn b s = skipn (b - a) (skipn a s)) by (rewrite skipn_twice; f_equal; lia). rewrite E. generalize (skipn a s). generalize (b - a) (c - b). intros n m t. revert t. induction n as [|n IH]; intros t; [reflexivity|].
  destruct t as [|d t]; [now rewrite !firstn_nil|]. cbn [firstn skipn app Nat.add]. now rewrite IH.
Qed.

(** Where a line begins after blank lines. *)
Definition begins_group (doc : str) (lo i : nat) : Prop :=
  lo + 2 <= i /\ nth_error doc (i - 2) = Some LF /\ nth_error doc (i - 1) = Some LF /\ exists c, nth_error doc i = Some c /\ c <> LF.

Lemma at_lf_spec s i : at_lf s i = true <-> nth_error s i = Some LF.
Proof. unfold at_lf. destruct (nth_error s i) as [c|]; [|split; discriminate]. destruct (Ascii.eqb_spec c LF) as [->|N0]; split; congruence. Qed.

Lemma group_starts_spec doc lo hi i : lo <= hi <= List.length doc -> (In i (group_starts doc lo hi) <-> begins_group doc lo i /\ i < hi).
Proof.
  intros L. unfold group_starts. rewrite in_map_iff. setoid_rewrite filter_In. setoid_rewrite in_seq. rewrite slice_length by exact L.
  setoid_rewrite andb_true_iff. setoid_rewrite andb_true_iff. setoid_rewrite at_lf_spec. setoid_rewrite negb_true_iff.
  assert (NL : forall j, j < hi - lo -> (at_lf (slice lo hi doc) j = false <-> exists c, nth_error doc (lo + j) = Some c /\ c <> LF)).
  { intros j Lj. unfold at_lf. rewrite slice_nth by exact Lj. destruct (nth_error doc (lo + j)) as [c|] eqn:E.
    - destruct (Ascii.eqb_spec c LF) as [->|N0]; split; try discriminate; try reflexivity; [intros (c & K & N0); congruence|eauto].
    - apply nth_error_None in E. lia. }
  unfold begins_group. split.
  - intros (j & <- & (B1 & B2) & ((H1 & H2) & H3)). rewrite slice_nth in H1, H2 by lia. apply NL in H3; [|lia].
    replace (lo + j - 2) with (lo + (j - 2)) by lia. replace (lo + j - 1) with (lo + (j - 1)) by lia. repeat split; auto; lia.
  - intros ((B & H1 & H2 & H3) & U). exists (i - lo). split; [lia|]. split; [lia|]. rewrite !slice_nth by lia. rewrite NL by lia.
    replace (lo + (i - lo - 2)) with (i - 2) by lia. replace (lo + (i - lo - 1)) with (i - 1) by lia. replace (lo + (i - lo)) with i by lia. auto.
Qed.

Lemma filter_sorted f l : StronglySorted lt l -> StronglySorted lt (filter f l).
Proof.
  induction 1 as [|x l S IH F]; [constructor|]. cbn [filter]. destruct (f x); [|exact IH]. constructor; [exact IH|].
  rewrite Forall_forall in *. intros y I. apply filter_In in I as [I _]. auto.
Qed.
Lemma seq_sorted n : forall a, StronglySorted lt (seq a n).
Proof. induction n as [|n IH]; intros a; [constructor|]. cbn [seq]. constructor; [apply IH|]. rewrite Forall_forall. intros y I. apply in_seq in I. lia. Qed.
Lemma group_starts_sorted doc lo hi : StronglySorted lt (group_starts doc lo hi).
Proof.
  unfold group_starts. assert (K : forall l, StronglySorted lt l -> StronglySorted lt (map (fun i => lo + i) l)).
  { induction 1 as [|x l S IH F]; [constructor|]. cbn [map]. constructor; [exact IH|]. rewrite Forall_forall in *. intros y I. apply in_map_iff in I as (z & <- & I). specialize (F _ I). lia. }
  apply K, filter_sorted, seq_sorted.
Qed.

Definition piece (doc : str) (g : nat * nat) : str := slice (fst g) (snd g) doc.

Lemma cuts_concat doc starts : forall start hi, StronglySorted lt starts -> (forall p, In p starts -> start <= p <= hi) -> start <= hi ->
  List.concat (map (piece doc) (cuts start starts hi)) = slice start hi doc.
Proof.
  induction starts as [|p starts IH]; intros start hi S B L; cbn [cuts map List.concat]; [now rewrite app_nil_r|].
  apply StronglySorted_inv in S as [S F]. rewrite Forall_forall in F. pose proof (B p (or_introl eq_refl)).
  rewrite IH; [apply slice_join; lia|exact S| |lia]. intros q I. specialize (F q I). specialize (B q (or_intror I)). lia.
Qed.

Lemma cuts_hd doc start starts hi : exists q, nth_error (map (piece doc) (cuts start starts hi)) 0 = Some (slice start q doc) /\
  match starts with [] => q = hi | p :: _ => q = p end.
Proof. destruct starts as [|p starts]; eexists; split; reflexivity. Qed.

Lemma slice_end doc start p : start + 2 <= p -> p <= List.length doc -> nth_error doc (p - 2) = Some LF -> nth_error doc (p - 1) = Some LF ->
  slice start p doc = slice start (p - 2) doc ++ [LF; LF].
Proof.
  intros L1 L2 H1 H2. rewrite <- (slice_join start (p - 2) p) by lia. f_equal.
  assert (Le : List.length (slice (p - 2) p doc) = 2) by (rewrite slice_length; lia).
  assert (A : nth_error (slice (p - 2) p doc) 0 = Some LF) by (rewrite slice_nth, Nat.add_0_r by lia; exact H1).
  assert (B : nth_error (slice (p - 2) p doc) 1 = Some LF) by (rewrite slice_nth by lia; replace (p - 2 + 1) with (p - 1) by lia; exact H2).
  destruct (slice (p - 2) p doc) as [|x [|y [|z l]]]; try discriminate Le. cbn [nth_error] in A, B. congruence.
Qed.

Lemma cuts_adjacent doc lo hi : hi <= List.length doc -> forall starts start i p q,
  StronglySorted lt starts -> (forall j, In j starts -> begins_group doc lo j /\ j < hi) ->
  (start = lo \/ begins_group doc lo start) -> (forall j, In j starts -> start < j) ->
  nth_error (map (piece doc) (cuts start starts hi)) i = Some p -> nth_error (map (piece doc) (cuts start starts hi)) (S i) = Some q ->
  (exists t, p = t ++ [LF; LF]) /\ exists c r, q = c :: r /\ c <> LF.
Proof.
  intros Lh. induction starts as [|s starts IH]; intros start i p q S G St B Hp Hq; cbn [cuts map] in Hp, Hq.
  - destruct i as [|i]; cbn [nth_error] in Hq; [discriminate|destruct i; discriminate].
  - apply StronglySorted_inv in S as [S F]. rewrite Forall_forall in F. destruct (G s (or_introl eq_refl)) as ((Ls & H1 & H2 & c & H3 & N0) & Us).
    destruct i as [|i].
    + cbn [nth_error] in Hp. injection Hp as <-. unfold piece. cbn [fst snd]. pose proof (B s (or_introl eq_refl)) as Bs.
      assert (Gap : start + 2 <= s).
      { destruct St as [->|(_ & _ & _ & d & K & Nd)]; [lia|]. assert (start <> s - 1) by congruence. assert (start <> s - 2) by congruence. lia. }
      split; [eexists; apply slice_end; auto; lia|]. change (nth_error (map (piece doc) (cuts s starts hi)) 0 = Some q) in Hq.
      destruct (cuts_hd doc s starts hi) as (u & Hu & Cu). rewrite Hu in Hq. injection Hq as <-.
      assert (Lu : s < u <= hi). { destruct starts as [|r starts]; subst u; [lia|]. specialize (F r (or_introl eq_refl)). destruct (G r (or_intror (or_introl eq_refl))). lia. }
      assert (A : nth_error (slice s u doc) 0 = Some c) by (rewrite slice_nth, Nat.add_0_r by lia; exact H3).
      destruct (slice s u doc) as [|x l]; [discriminate A|]. injection A as ->. eauto.
    + apply (IH s i p q); auto.
      * intros j I. apply G. now right.
      * right. repeat split; eauto.
Qed.

Lemma cuts_whole doc lo hi : hi <= List.length doc -> forall starts start p a c b,
  StronglySorted lt starts -> (forall j, start < j -> begins_group doc lo j -> j < hi -> In j starts) -> lo <= start <= hi ->
  (forall j, In j starts -> start < j < hi) ->
  In p (map (piece doc) (cuts start starts hi)) -> c <> LF -> p <> a ++ LF :: LF :: c :: b.
Proof.
  intros Lh.
  assert (One : forall start e a c b, lo <= start <= e -> e <= List.length doc -> c <> LF -> slice start e doc = a ++ LF :: LF :: c :: b ->
            exists j, start < j < e /\ begins_group doc lo j).
  { intros start e a c b L1 L2 N0 E.
    assert (Le : e - start = List.length a + 3 + List.length b).
    { rewrite <- (slice_length start e doc) by lia. rewrite E, app_length. cbn [List.length]. lia. }
    assert (X : forall k, k < 3 -> nth_error doc (start + (List.length a + k)) = nth_error [LF; LF; c] k).
    { intros k Lk. rewrite <- (slice_nth start e doc) by lia. rewrite E, nth_error_app2 by lia. replace (List.length a + k - List.length a) with k by lia.
      destruct k as [|[|[|k]]]; try reflexivity; lia. }
    exists (start + (List.length a + 2)). split; [lia|]. split; [lia|].
    replace (start + (List.length a + 2) - 2) with (start + (List.length a + 0)) by lia.
    replace (start + (List.length a + 2) - 1) with (start + (List.length a + 1)) by lia.
    rewrite !X by lia. cbn [nth_error]. eauto. }
  induction starts as [|s starts IH]; intros start p a c b S C L B I N0 E; cbn [cuts map] in I.
  - destruct I as [<-|[]]. destruct (One start hi a c b) as (j & Lj & Gj); auto. exact (C j (proj1 Lj) Gj (proj2 Lj)).
  - apply StronglySorted_inv in S as [S F]. rewrite Forall_forall in F. pose proof (B s (or_introl eq_refl)) as Bs. destruct I as [<-|I].
    + destruct (One start s a c b) as (j & Lj & Gj); auto; try lia. destruct (C j) as [<-|K]; auto; try lia. specialize (F j K). lia.
    + revert I N0 E. apply (IH s); auto; try lia.
      * intros j Lj Gj Uj. destruct (C j) as [<-|K]; auto; lia.
      * intros j K. specialize (F j K). specialize (B j (or_intror K)). lia.
Qed.

Lemma groups_cut doc lo hi : lo <= hi <= List.length doc -> cut_at_blanks (slice lo hi doc) (map (piece doc) (groups doc lo hi)).
Proof.
  intros L. pose proof (group_starts_sorted doc lo hi) as S. pose proof (fun i => group_starts_spec doc lo hi i L) as G.
  assert (B : forall j, In j (group_starts doc lo hi) -> lo < j < hi). { intros j I. apply G in I as ((Lj & _) & Uj). lia. }
  unfold groups. split; [|split].
  - apply cuts_concat; [exact S| |lia]. intros j I. specialize (B j I). lia.
  - intros i p q. apply (cuts_adjacent doc lo hi (proj2 L)); auto. { intros j I. now apply G. } intros j I. now apply B.
  - intros p a c b I N0. apply (cuts_whole doc lo hi (proj2 L) (group_starts doc lo hi) lo p a c b); auto; try lia.
    intros j _ Gj Uj. apply G. auto.
Qed.
