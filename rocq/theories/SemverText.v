(** Versions as text: how they are printed, read back, and read as requirements. *)
From Coq Require Import Ascii String List Bool Arith NArith Lia.
From Verif Require Import Base Decimal Semver.
Import ListNotations.
Local Open Scope N_scope.

(** The semver crate's [Version] with its texts: the dot-separated words of the prerelease and of
    the build metadata.  The empty list stands for the empty text. *)
Record tversion := mkt { t_major : N; t_minor : N; t_patch : N; t_pre : list str; t_build : list str }.

(** [Display for Version] (semver, external), used at cargo-test-fuzz/src/lib.rs:745-746, 751-753,
    764. *)
Definition dot : str := lit ".".
Definition show (v : tversion) : str :=
  dec (t_major v) ++ dot ++ dec (t_minor v) ++ dot ++ dec (t_patch v)
  ++ (match t_pre v with [] => [] | l => lit "-" ++ join dot l end)
  ++ (match t_build v with [] => [] | l => lit "+" ++ join dot l end).

(** The largest [u64] (std). *)
Definition u64_max : N := 18446744073709551615.

Definition digit_b (c : ascii) : bool := (48 <=? N_of_ascii c) && (N_of_ascii c <=? 57).
Definition letter_b (c : ascii) : bool :=
  ((65 <=? N_of_ascii c) && (N_of_ascii c <=? 90)) || ((97 <=? N_of_ascii c) && (N_of_ascii c <=? 122)).
Definition hyphen_b (c : ascii) : bool := N_of_ascii c =? 45.
Definition word_b (c : ascii) : bool := digit_b c || letter_b c || hyphen_b c.

(** semver's [numeric_identifier] (external): digits without a superfluous leading zero, within
    64 bits; [first]: none has been read yet. *)
Fixpoint numeric_loop (first : bool) (v : N) (s : str) : option (N * str) :=
  match s with
  | c :: s' =>
      if digit_b c then
        if (v =? 0) && negb first then None
        else let v' := 10 * v + digit_value c in
             if u64_max <? v' then None else numeric_loop false v' s'
      else if first then None else Some (v, s)
  | [] => if first then None else Some (v, [])
  end.
Definition numeric (s : str) : option (N * str) := numeric_loop true 0 s.

(** semver's [identifier] (external): words separated by dots; [seg] holds the characters of the
    current word in reverse, [acc] the words before it in reverse.  A prerelease word made of
    digits has no superfluous leading zero.  No word at all is not an error here. *)
Definition bad_number (w : str) : bool :=
  forallb digit_b w && match w with c :: _ :: _ => N_of_ascii c =? 48 | _ => false end.
Fixpoint words_loop (pre : bool) (acc : list str) (seg : str) (s : str) : option (list str * str) :=
  let finish (rest : str) :=
    match seg with
    | [] => match acc with [] => Some ([], rest) | _ => None end
    | _ => if pre && bad_number (rev seg) then None else Some (rev (rev seg :: acc), rest)
    end in
  match s with
  | [] => finish []
  | c :: s' =>
      if word_b c then words_loop pre acc (c :: seg) s'
      else if N_of_ascii c =? 46 then
        match seg with
        | [] => None
        | _ => if pre && bad_number (rev seg) then None else words_loop pre (rev seg :: acc) [] s'
        end
      else finish s
  end.
(** semver's [prerelease_identifier] and [build_identifier] with the callers' check that
    something has been read (external). *)
Definition words (pre : bool) (s : str) : option (list str * str) :=
  match words_loop pre [] [] s with
  | Some (l, rest) => match l with [] => None | _ => Some (l, rest) end
  | None => None
  end.

(** An optional part introduced by the character [c] (semver, external). *)
Definition optional (pre : bool) (c : str) (s : str) : option (list str * str) :=
  match strip_prefix c s with
  | Some s' => words pre s'
  | None => Some ([], s)
  end.

(** semver's [Version::from_str] (external), used at cargo-test-fuzz/src/lib.rs:729. *)
Definition parse (s : str) : option tversion :=
  match numeric s with
  | Some (a, s1) =>
      match strip_prefix dot s1 with
      | Some s2 =>
          match numeric s2 with
          | Some (b, s3) =>
              match strip_prefix dot s3 with
              | Some s4 =>
                  match numeric s4 with
                  | Some (c, s5) =>
                      match optional true (lit "-") s5 with
                      | Some (p, s6) =>
                          match optional false (lit "+") s6 with
                          | Some (q, s7) => match s7 with [] => Some (mkt a b c p q) | _ => None end
                          | None => None
                          end
                      | None => None
                      end
                  | None => None
                  end
              | None => None
              end
          | None => None
          end
      | None => None
      end
  | None => None
  end.

(** semver's [Comparator] (external), for the operators that occur. *)
Inductive vop := Caret | GreaterEq.
Record comparator := mkc { c_op : vop; c_major : N; c_minor : option N; c_patch : option N; c_pre : list str }.

Fixpoint skip_spaces (s : str) : str :=
  match s with c :: s' => if N_of_ascii c =? 32 then skip_spaces s' else s | [] => [] end.

(** A further component, if there is a dot (semver's [comparator], external).  Simplification:
    wildcards are not read. *)
Definition component (s : str) : option (option N * str) :=
  match strip_prefix dot s with
  | Some s' => match numeric s' with Some (n, r) => Some (Some n, r) | None => None end
  | None => Some (None, s)
  end.

(** semver's [comparator] (external): the default operator is the caret.  Simplification: of the
    operators only the default and [>=] are read. *)
Definition read_comparator (s : str) : option (comparator * str) :=
  let '(op, s0) := match strip_prefix (lit ">=") s with Some s' => (GreaterEq, s') | None => (Caret, s) end in
  match numeric (skip_spaces s0) with
  | None => None
  | Some (a, s1) =>
      match component s1 with
      | None => None
      | Some (b, s2) =>
          match component s2 with
          | None => None
          | Some (c, s3) =>
              match (match c with Some _ => optional true (lit "-") s3 | None => Some ([], s3) end) with
              | None => None
              | Some (p, s4) =>
                  match (match c with Some _ => optional false (lit "+") s4 | None => Some ([], s4) end) with
                  | None => None
                  | Some (_, s5) => Some (mkc op a b c p, skip_spaces s5)
                  end
              end
          end
      end
  end.

(** semver's [VersionReq::from_str] (external).  Simplification: a second comparator after a
    comma is not read, nor is the requirement that everything satisfies. *)
Definition read_req (s : str) : option (list comparator) :=
  match read_comparator (skip_spaces s) with
  | Some (c, []) => Some [c]
  | _ => None
  end.

(** cargo-test-fuzz/src/lib.rs:762-765 [as_version_req]: text that is no requirement is a panic. *)
Definition as_version_req (v : tversion) : outcome (list comparator) :=
  match read_req (show v) with Some r => Ret r | None => Panic end.

(** semver's comparison of two prerelease words (external): digits by length, then as text. *)
Definition seg_cmp (a b : str) : comparison :=
  match forallb digit_b a, forallb digit_b b with
  | false, true => Gt
  | true, false => Lt
  | false, false => str_cmp a b
  | true, true => match Nat.compare (List.length a) (List.length b) with Eq => str_cmp a b | c => c end
  end.
Fixpoint segs_cmp (a b : list str) : comparison :=
  match a, b with
  | [], [] => Eq
  | [], _ :: _ => Lt
  | _ :: _, [] => Gt
  | x :: a', y :: b' => match seg_cmp x y with Eq => segs_cmp a' b' | c => c end
  end.
(** semver's [Ord for Prerelease] (external). *)
Definition tpre_cmp (a b : list str) : comparison :=
  match a, b with
  | [], [] => Eq
  | [], _ :: _ => Gt
  | _ :: _, [] => Lt
  | _, _ => segs_cmp a b
  end.

(** semver's [matches_caret] (external). *)
Definition caret (c : comparator) (v : tversion) : bool :=
  if negb (t_major v =? c_major c) then false
  else match c_minor c with
  | None => true
  | Some minor =>
      match c_patch c with
      | None => if 0 <? c_major c then minor <=? t_minor v else t_minor v =? minor
      | Some patch =>
          if 0 <? c_major c then
            if negb (t_minor v =? minor) then minor <? t_minor v
            else if negb (t_patch v =? patch) then patch <? t_patch v
            else geb (tpre_cmp (t_pre v) (c_pre c))
          else if 0 <? minor then
            if negb (t_minor v =? minor) then false
            else if negb (t_patch v =? patch) then patch <? t_patch v
            else geb (tpre_cmp (t_pre v) (c_pre c))
          else if negb (t_minor v =? minor) || negb (t_patch v =? patch) then false
          else geb (tpre_cmp (t_pre v) (c_pre c))
      end
  end.

(** semver's [matches_exact] or [matches_greater] (external). *)
Definition greater_eq (c : comparator) (v : tversion) : bool :=
  let same (x : option N) (n : N) := match x with Some m => n =? m | None => true end in
  let exact := (t_major v =? c_major c) && same (c_minor c) (t_minor v) && same (c_patch c) (t_patch v) &&
               (if list_eq_dec str_dec (t_pre v) (c_pre c) then true else false) in
  let greater :=
    if negb (t_major v =? c_major c) then c_major c <? t_major v
    else match c_minor c with
    | None => false
    | Some minor =>
        if negb (t_minor v =? minor) then minor <? t_minor v
        else match c_patch c with
        | None => false
        | Some patch =>
            if negb (t_patch v =? patch) then patch <? t_patch v
            else match tpre_cmp (t_pre v) (c_pre c) with Gt => true | _ => false end
        end
    end in
  exact || greater.

Definition satisfied (c : comparator) (v : tversion) : bool :=
  match c_op c with Caret => caret c v | GreaterEq => greater_eq c v end.

(** semver's [pre_is_compatible] (external). *)
Definition tpre_compatible (c : comparator) (v : tversion) : bool :=
  (c_major c =? t_major v)
  && match c_minor c with Some m => m =? t_minor v | None => false end
  && match c_patch c with Some p => p =? t_patch v | None => false end
  && match c_pre c with [] => false | _ => true end.

(** semver's [matches_req] (external). *)
Definition matches_req (r : list comparator) (v : tversion) : bool :=
  forallb (fun c => satisfied c v) r
  && match t_pre v with [] => true | _ => existsb (fun c => tpre_compatible c v) r end.

(** cargo-test-fuzz/src/lib.rs:732-760 [check_dependency_version]: what is printed, and the error
    if there is one. *)
Definition check_text (name dependency : str) (dv : option tversion) (binary : str) (bv : tversion)
  : outcome (list str * option str) :=
  match dv with
  | Some d =>
      bind (match t_pre bv with
            | [] => bind (as_version_req d) (fun r =>
                      if matches_req r bv then Ret true
                      else bind (as_version_req bv) (fun r' => Ret (matches_req r' d)))
            | _ => Ret true
            end) (fun ok =>
      if negb ok then
        Ret ([], Some (lit "`" ++ name ++ lit "` depends on `" ++ dependency ++ lit " " ++ show d
                       ++ lit "`, which is incompatible with `" ++ binary ++ lit " " ++ show bv ++ lit "`."))
      else
        bind (as_version_req d) (fun r =>
        if negb (matches_req r bv) then
          Ret ([lit "`" ++ name ++ lit "` depends on `" ++ dependency ++ lit " " ++ show d ++ lit "`, which is newer than `"
                ++ binary ++ lit " " ++ show bv ++ lit "`. Consider upgrading with `cargo install " ++ binary
                ++ lit " --force --version '>=" ++ show d ++ lit "'`."], None)
        else Ret ([], None)))
  | None => Ret ([], Some (lit "`" ++ name ++ lit "` does not depend on `" ++ dependency ++ lit "`"))
  end.

(** * Specification *)

(** The characters of words and the words. *)
Definition word_char (c : ascii) : Prop :=
  is_digit c \/ (65 <= N_of_ascii c <= 90) \/ (97 <= N_of_ascii c <= 122) \/ c = "-"%char.
Definition word (w : str) : Prop := w <> [] /\ Forall word_char w.
(** Digits without a superfluous leading zero, or not digits only. *)
Definition pre_word (w : str) : Prop := word w /\ (Forall is_digit w -> forall t, w = "0"%char :: t -> t = []).

(** Numbers of 64 bits and words. *)
Definition well_formed (v : tversion) : Prop :=
  (t_major v < 2 ^ 64 /\ t_minor v < 2 ^ 64 /\ t_patch v < 2 ^ 64) /\
  Forall pre_word (t_pre v) /\ Forall word (t_build v).

(** [l] written with dots between the words. *)
Inductive dotted : list str -> str -> Prop :=
| dotted_one : forall w, dotted [w] w
| dotted_more : forall w l s, dotted l s -> dotted (w :: l) (w ++ "."%char :: s).

(** A part introduced by a character, absent if there is no word. *)
Definition part (c : ascii) (l : list str) (s : str) : Prop :=
  (l = [] /\ s = []) \/ (exists t, dotted l t /\ s = c :: t).

(** [s] is how [v] is written. *)
Definition written (v : tversion) (s : str) : Prop :=
  exists a b c p q,
    numeral (t_major v) a /\ numeral (t_minor v) b /\ numeral (t_patch v) c /\
    part "-" (t_pre v) p /\ part "+" (t_build v) q /\
    s = a ++ "."%char :: b ++ "."%char :: c ++ p ++ q.

(** What matters for compatibility: the words of digits are numbers, build metadata is dropped. *)
Definition classify (w : str) : ident := if forallb digit_b w then Num (value w) else Alpha w.
Definition core (v : tversion) : version := mkversion (t_major v) (t_minor v) (t_patch v) (map classify (t_pre v)).

(** * Proofs *)

Lemma digit_b_spec c : digit_b c = true <-> is_digit c.
Proof. unfold digit_b, is_digit. rewrite andb_true_iff, !N.leb_le. reflexivity. Qed.

Lemma digits_spec w : forallb digit_b w = true <-> Forall is_digit w.
Proof. rewrite forallb_forall, Forall_forall. split; intros H x I; apply digit_b_spec, H, I. Qed.

Lemma char_eq a b : N_of_ascii a = N_of_ascii b <-> a = b.
Proof. split; [|congruence]. intros E. rewrite <- (ascii_N_embedding a), <- (ascii_N_embedding b). now f_equal. Qed.

Lemma word_b_spec c : word_b c = true <-> word_char c.
Proof.
  unfold word_b, word_char, letter_b, hyphen_b. rewrite !orb_true_iff, digit_b_spec, !andb_true_iff, !N.leb_le, N.eqb_eq.
  assert (H : N_of_ascii c = 45 <-> c = "-"%char) by (rewrite <- (char_eq c "-"%char); reflexivity). tauto.
Qed.

Lemma from_value s : forall v, from v s = v * 10 ^ N.of_nat (List.length s) + value s.
Proof.
  unfold value. change (fold_left _ s 0) with (from 0 s).
  induction s as [|c s IH]; intros v; cbn [from fold_left List.length].
  - rewrite N.pow_0_r. lia.
  - fold (from (10 * v + digit_value c) s). fold (from (10 * 0 + digit_value c) s).
    rewrite (IH (10 * v + digit_value c)), (IH (10 * 0 + digit_value c)), Nat2N.inj_succ, N.pow_succ_r'. lia.
Qed.

Lemma value_cons c s : value (c :: s) = digit_value c * 10 ^ N.of_nat (List.length s) + value s.
Proof.
  unfold value at 1. cbn [fold_left]. fold (from (10 * 0 + digit_value c) s). rewrite from_value. lia.
Qed.

Lemma value_bound s : Forall is_digit s -> value s < 10 ^ N.of_nat (List.length s).
Proof.
  induction 1 as [|c s D F IH]; [reflexivity|]. rewrite value_cons. cbn [List.length]. rewrite Nat2N.inj_succ, N.pow_succ_r'.
  unfold is_digit, digit_value in *.
  assert ((N_of_ascii c - 48) * 10 ^ N.of_nat (List.length s) <= 9 * 10 ^ N.of_nat (List.length s)) by (apply N.mul_le_mono_r; lia).
  lia.
Qed.

Lemma same_length_cmp a : forall b, Forall is_digit a -> Forall is_digit b -> List.length a = List.length b ->
  str_cmp a b = (value a ?= value b).
Proof.
  induction a as [|x a IH]; intros [|y b] Fa Fb L; try discriminate L; [reflexivity|].
  inversion Fa as [|? ? Dx Fa']; subst. inversion Fb as [|? ? Dy Fb']; subst.
  cbn [str_cmp List.length] in *. injection L as L.
  rewrite !value_cons, <- L.
  pose proof (value_bound a Fa') as Ba. pose proof (value_bound b Fb') as Bb. rewrite <- L in Bb.
  set (P := 10 ^ N.of_nat (List.length a)) in *.
  unfold is_digit, digit_value in *.
  destruct (N.compare_spec (N_of_ascii x) (N_of_ascii y)) as [E|E|E]; symmetry.
  - rewrite E, (IH b Fa' Fb' L). destruct (N.compare_spec (value a) (value b)) as [G|G|G];
      [apply N.compare_eq_iff|apply N.compare_lt_iff|apply N.compare_gt_iff]; lia.
  - apply N.compare_lt_iff.
    assert ((N_of_ascii x - 48) * P + P <= (N_of_ascii y - 48) * P); [|lia].
    replace ((N_of_ascii x - 48) * P + P) with ((N_of_ascii x - 48 + 1) * P) by lia. apply N.mul_le_mono_r. lia.
  - apply N.compare_gt_iff.
    assert ((N_of_ascii y - 48) * P + P <= (N_of_ascii x - 48) * P); [|lia].
    replace ((N_of_ascii y - 48) * P + P) with ((N_of_ascii y - 48 + 1) * P) by lia. apply N.mul_le_mono_r. lia.
Qed.

Lemma longer_greater a b : a <> [] -> Forall is_digit a -> Forall is_digit b ->
  (forall t, b = "0"%char :: t -> t = []) -> (List.length a < List.length b)%nat -> value a < value b.
Proof.
  intros Na Fa Fb Z L. pose proof (value_bound a Fa) as Ba.
  destruct b as [|y b]; [cbn in L; lia|]. inversion Fb as [|? ? Dy Fb']; subst.
  rewrite value_cons. cbn [List.length] in L.
  assert (P : 10 ^ N.of_nat (List.length a) <= 10 ^ N.of_nat (List.length b)) by (apply N.pow_le_mono_r; lia).
  assert (Y : 1 <= digit_value y).
  { unfold digit_value, is_digit in *. destruct (N.eq_dec (N_of_ascii y) 48) as [E|E]; [|lia].
    assert (y = "0"%char) as -> by (apply char_eq; rewrite E; reflexivity).
    specialize (Z b eq_refl). subst b. destruct a; [contradiction|cbn in L; lia]. }
  assert (1 * 10 ^ N.of_nat (List.length b) <= digit_value y * 10 ^ N.of_nat (List.length b)) by (apply N.mul_le_mono_r; exact Y).
  lia.
Qed.

(** Comparing numerals by length and then as text is comparing their values. *)
Lemma numeral_cmp a b : a <> [] -> b <> [] -> Forall is_digit a -> Forall is_digit b ->
  (forall t, a = "0"%char :: t -> t = []) -> (forall t, b = "0"%char :: t -> t = []) ->
  match Nat.compare (List.length a) (List.length b) with Eq => str_cmp a b | c => c end = (value a ?= value b).
Proof.
  intros Na Nb Fa Fb Za Zb. destruct (Nat.compare_spec (List.length a) (List.length b)) as [E|E|E].
  - now apply same_length_cmp.
  - symmetry. apply N.compare_lt_iff. now apply longer_greater.
  - symmetry. apply N.compare_gt_iff. now apply longer_greater.
Qed.

Lemma numeral_unique n a b : numeral n a -> numeral n b -> a = b.
Proof.
  intros (Na & Fa & Va & Za) (Nb & Fb & Vb & Zb).
  pose proof (numeral_cmp a b Na Nb Fa Fb Za Zb) as H. rewrite Va, Vb, N.compare_refl in H.
  destruct (Nat.compare_spec (List.length a) (List.length b)) as [E|E|E]; try discriminate H.
  pose proof (str_cmp_spec a b) as K. now rewrite H in K.
Qed.

Lemma numeral_dec n a : numeral n a -> a = dec n.
Proof. intros H. exact (numeral_unique n a (dec n) H (dec_numeral n)). Qed.

(** Where a number ends. *)
Definition no_digit (s : str) : Prop := forall c t, s = c :: t -> ~ is_digit c.

Lemma numeric_loop_app a : forall first v rest,
  Forall is_digit a -> from v a <= u64_max -> no_digit rest ->
  (first = true -> a <> []) -> (v = 0 -> first = false -> a = []) -> (v = 0 -> forall t, a = "0"%char :: t -> t = []) ->
  numeric_loop first v (a ++ rest) = Some (from v a, rest).
Proof.
  induction a as [|c a IH]; intros first v rest F L R Hf Hz H0.
  - destruct first; [now specialize (Hf eq_refl)|]. cbn [app from fold_left].
    destruct rest as [|c rest]; [reflexivity|]. cbn [numeric_loop].
    destruct (digit_b c) eqn:D; [|reflexivity]. apply digit_b_spec in D. exfalso. exact (R c rest eq_refl D).
  - inversion F as [|? ? D F']; subst. cbn [app numeric_loop].
    rewrite (proj2 (digit_b_spec c) D).
    assert (G : (v =? 0) && negb first = false).
    { destruct (N.eqb_spec v 0) as [E|E]; [|reflexivity]. destruct first; [reflexivity|]. now specialize (Hz E eq_refl). }
    rewrite G. cbn [from fold_left] in L |- *. fold (from (10 * v + digit_value c) a) in *.
    assert (V : 10 * v + digit_value c <= u64_max).
    { rewrite from_value in L. assert (1 <= 10 ^ N.of_nat (List.length a)) by (apply N.lt_pred_le, N.neq_0_lt_0; cbn; apply N.pow_nonzero; discriminate).
      assert ((10 * v + digit_value c) * 1 <= (10 * v + digit_value c) * 10 ^ N.of_nat (List.length a)) by (apply N.mul_le_mono_l; assumption). lia. }
    rewrite (proj2 (N.ltb_ge u64_max _) V). apply IH; try assumption; try discriminate.
    + intros E _. assert (Ev : v = 0) by lia. apply (H0 Ev). f_equal. apply char_eq. unfold digit_value, is_digit in *.
      change (N_of_ascii "0") with 48. lia.
    + intros E t Et. assert (Ev : v = 0) by lia.
      assert (a = []) as Ea; [|rewrite Ea in Et; discriminate Et].
      apply (H0 Ev). f_equal. apply char_eq. unfold digit_value, is_digit in *. change (N_of_ascii "0") with 48. lia.
Qed.

Lemma u64_max_spec n : n <= u64_max <-> n < 2 ^ 64.
Proof. change (2 ^ 64) with (N.succ u64_max). symmetry. apply N.lt_succ_r. Qed.

Lemma numeric_app n a rest : numeral n a -> n < 2 ^ 64 -> no_digit rest -> numeric (a ++ rest) = Some (n, rest).
Proof.
  intros (Na & Fa & Va & Za) L R. apply u64_max_spec in L. subst n. unfold numeric.
  rewrite (numeric_loop_app a true 0 rest); try assumption; auto; discriminate.
Qed.

Lemma numeric_loop_inv s : forall first v n rest, numeric_loop first v s = Some (n, rest) -> v <= u64_max ->
  exists a, s = a ++ rest /\ Forall is_digit a /\ n = from v a /\ n <= u64_max /\ no_digit rest /\
    (first = true -> a <> []) /\ (v = 0 -> first = false -> a = []) /\ (v = 0 -> forall t, a = "0"%char :: t -> t = []).
Proof.
  induction s as [|c s IH]; intros first v n rest E L; cbn [numeric_loop] in E.
  - destruct first; [discriminate E|]. injection E as <- <-. exists []. cbn. repeat split; auto; try discriminate; try (intros ? ? Q; discriminate Q).
  - destruct (digit_b c) eqn:D.
    + destruct ((v =? 0) && negb first) eqn:G; [discriminate E|].
      destruct (u64_max <? 10 * v + digit_value c) eqn:O; [discriminate E|]. apply N.ltb_ge in O.
      destruct (IH _ _ _ _ E O) as (a & -> & F & -> & Ln & R & _ & Hz & H0). apply digit_b_spec in D.
      exists (c :: a). split; [reflexivity|]. split; [now constructor|]. split; [reflexivity|]. split; [exact Ln|]. split; [exact R|].
      split; [discriminate|]. split.
      * intros -> ->. discriminate G.
      * intros -> t Q. injection Q as -> ->. apply Hz; reflexivity.
    + destruct first; [discriminate E|]. injection E as <- <-. exists []. cbn [app from fold_left]. repeat split; auto; try discriminate.
      intros c' t Q. injection Q as <- <-. rewrite <- digit_b_spec. congruence.
Qed.

Lemma numeric_inv s n rest : numeric s = Some (n, rest) ->
  exists a, s = a ++ rest /\ numeral n a /\ n < 2 ^ 64 /\ no_digit rest.
Proof.
  intros E. destruct (numeric_loop_inv s true 0 n rest E) as (a & -> & F & -> & L & R & Ne & _ & Z).
  - unfold u64_max. lia.
  - apply u64_max_spec in L. exists a. split; [reflexivity|]. split; [|auto]. split; [now apply Ne|]. split; [exact F|]. split; [reflexivity|now apply Z].
Qed.

(** Where words end. *)
Definition stops (s : str) : Prop := forall c t, s = c :: t -> ~ word_char c /\ c <> "."%char.
Definition proper (pre : bool) (w : str) : Prop := if pre then pre_word w else word w.

Lemma bad_number_spec w : bad_number w = false <-> (Forall is_digit w -> forall t, w = "0"%char :: t -> t = []).
Proof.
  unfold bad_number. split.
  - intros H F t ->. apply digits_spec in F. rewrite F in H. destruct t; [reflexivity|discriminate H].
  - intros H. destruct (forallb digit_b w) eqn:F; [|reflexivity]. apply digits_spec in F. specialize (H F).
    destruct w as [|c [|d w]]; try reflexivity. cbn [andb]. destruct (N.eqb_spec (N_of_ascii c) 48) as [E|E]; [|reflexivity].
    assert (c = "0"%char) as -> by (apply char_eq; rewrite E; reflexivity). discriminate (H _ eq_refl).
Qed.

Lemma proper_ok pre w : word w -> (pre && bad_number w = false <-> proper pre w).
Proof.
  intros W. destruct pre; cbn [andb proper]; [|tauto]. unfold pre_word. rewrite bad_number_spec. tauto.
Qed.

Lemma proper_word pre w : proper pre w -> word w.
Proof. destruct pre; cbn; [intros [H _]; exact H|auto]. Qed.

Lemma words_chars pre acc w : forall seg t, Forall word_char w -> words_loop pre acc seg (w ++ t) = words_loop pre acc (rev w ++ seg) t.
Proof.
  induction w as [|c w IH]; intros seg t F; [reflexivity|]. inversion F as [|? ? D F']; subst.
  cbn [app rev words_loop]. rewrite (proj2 (word_b_spec c) D), (IH _ _ F'), <- app_assoc. reflexivity.
Qed.

Lemma rev_nonempty {A} (l : list A) : l <> [] -> exists x m, rev l = x :: m.
Proof. intros H. destruct (rev l) eqn:E; [|eauto]. exfalso. apply H. rewrite <- (rev_involutive l), E. reflexivity. Qed.

Lemma dot_no_word : word_b "."%char = false.
Proof. reflexivity. Qed.

Lemma words_dotted pre l s : dotted l s -> forall acc rest, Forall (proper pre) l -> stops rest ->
  words_loop pre acc [] (s ++ rest) = Some (rev acc ++ l, rest).
Proof.
  induction 1 as [w|w l s D IH]; intros acc rest F R; inversion F as [|? ? P F']; subst; pose proof (proper_word _ _ P) as [Nw Fw].
  - rewrite words_chars by exact Fw. rewrite app_nil_r.
    destruct (rev_nonempty w Nw) as (x & m & E).
    assert (B : pre && bad_number (rev (rev w)) = false).
    { rewrite rev_involutive. apply proper_ok; [exact (proper_word _ _ P)|exact P]. }
    assert (K : rev (rev (rev w) :: acc) = rev acc ++ [w]) by (cbn [rev]; now rewrite rev_involutive).
    destruct rest as [|c rest]; cbn [words_loop].
    + rewrite B, K. rewrite E. reflexivity.
    + destruct (R c rest eq_refl) as [R1 R2].
      assert (W : word_b c = false) by (destruct (word_b c) eqn:W; [exfalso; apply R1; now apply word_b_spec|reflexivity]).
      assert (Dt : N_of_ascii c =? 46 = false).
      { apply N.eqb_neq. intros Q. apply R2, char_eq. rewrite Q. reflexivity. }
      rewrite W, Dt, B, K, E. reflexivity.
  - rewrite <- app_assoc, words_chars by exact Fw. rewrite app_nil_r.
    destruct (rev_nonempty w Nw) as (x & m & E).
    assert (B : pre && bad_number (rev (rev w)) = false).
    { rewrite rev_involutive. apply proper_ok; [exact (proper_word _ _ P)|exact P]. }
    cbn [app words_loop]. rewrite dot_no_word. change (N_of_ascii "." =? 46) with true. cbv iota. rewrite B.
    rewrite E. rewrite <- E, rev_involutive. rewrite IH by assumption. cbn [rev]. now rewrite <- app_assoc.
Qed.

Lemma words_inv_loop pre s : forall acc seg l rest, words_loop pre acc seg s = Some (l, rest) -> Forall word_char seg ->
  (acc = [] /\ seg = [] /\ l = [] /\ rest = s) \/
  exists l' t, l = rev acc ++ l' /\ dotted l' (rev seg ++ t) /\ s = t ++ rest /\ Forall (proper pre) l' /\ stops rest.
Proof.
  assert (One : forall acc seg rest l r, match seg with [] => match acc with [] => Some ([], rest) | _ => None end
                | _ => if pre && bad_number (rev seg) then None else Some (rev (rev seg :: acc), rest) end = Some (l, r) ->
                Forall word_char seg -> stops rest ->
                (acc = [] /\ seg = [] /\ l = [] /\ r = rest) \/
                exists l' t, l = rev acc ++ l' /\ dotted l' (rev seg ++ t) /\ rest = t ++ r /\ Forall (proper pre) l' /\ stops r).
  { intros acc seg rest l r E F R. destruct seg as [|c seg].
    - destruct acc; [|discriminate E]. injection E as <- <-. left. auto.
    - destruct (pre && bad_number (rev (c :: seg))) eqn:B; [discriminate E|]. injection E as <- <-. right.
      exists [rev (c :: seg)], []. split; [reflexivity|]. split; [rewrite app_nil_r; constructor|]. split; [reflexivity|]. split; [|exact R].
      constructor; [|constructor]. apply proper_ok; [|exact B]. split.
      + cbn [rev]. intros Q. apply app_eq_nil in Q as [_ Q]. discriminate Q.
      + apply Forall_rev. exact F. }
  induction s as [|c s IH]; intros acc seg l rest E F; cbn [words_loop] in E.
  - apply (One acc seg [] l rest) in E; [exact E|exact F|intros c t Q; discriminate Q].
  - destruct (word_b c) eqn:W.
    + apply word_b_spec in W. apply IH in E; [|now constructor].
      destruct E as [(_ & Q & _)|(l' & t & -> & D & -> & P & R)]; [discriminate Q|]. right.
      exists l', (c :: t). split; [reflexivity|]. split; [|auto]. cbn [rev] in D. rewrite <- app_assoc in D. exact D.
    + destruct (N.eqb_spec (N_of_ascii c) 46) as [Dt|Dt].
      * assert (c = "."%char) as -> by (apply char_eq; rewrite Dt; reflexivity).
        destruct seg as [|d seg]; [discriminate E|].
        destruct (pre && bad_number (rev (d :: seg))) eqn:B; [discriminate E|].
        apply IH in E; [|constructor].
        destruct E as [(Q & _)|(l' & t & -> & D & -> & P & R)]; [discriminate Q|]. right.
        exists (rev (d :: seg) :: l'), ("."%char :: t). split; [cbn [rev]; now rewrite <- !app_assoc|].
        split; [constructor; exact D|]. split; [reflexivity|]. split; [|exact R]. constructor; [|exact P].
        apply proper_ok; [|exact B]. split.
        -- cbn [rev]. intros Q. apply app_eq_nil in Q as [_ Q]. discriminate Q.
        -- apply Forall_rev. exact F.
      * apply (One acc seg (c :: s) l rest) in E; [exact E|exact F|].
        intros c' t Q. injection Q as <- <-. split; [rewrite <- word_b_spec; congruence|]. intros ->. now apply Dt.
Qed.

Lemma words_spec pre s l rest :
  words pre s = Some (l, rest) <-> exists t, s = t ++ rest /\ dotted l t /\ Forall (proper pre) l /\ stops rest.
Proof.
  unfold words. split.
  - destruct (words_loop pre [] [] s) as [[l0 r0]|] eqn:E; [|discriminate].
    apply words_inv_loop in E; [|constructor]. intros H.
    destruct l0 as [|x l0]; [discriminate H|]. injection H as <- <-.
    destruct E as [(_ & _ & Q & _)|(l' & t & E & D & -> & P & R)]; [discriminate Q|]. cbn [rev app] in *. subst l'. exists t. auto.
  - intros (t & -> & D & P & R). rewrite (words_dotted pre l t D [] rest P R). cbn [rev app].
    destruct l; [inversion D|reflexivity].
Qed.

Lemma optional_spec pre c s l rest :
  optional pre [c] s = Some (l, rest) <->
  exists t, s = t ++ rest /\ part c l t /\ Forall (proper pre) l /\ (l <> [] -> stops rest) /\ (l = [] -> forall u, rest <> c :: u).
Proof.
  unfold optional. destruct (strip_prefix [c] s) as [s'|] eqn:E.
  - apply strip_prefix_spec in E. subst s. rewrite words_spec. split.
    + intros (t & -> & D & P & R). exists (c :: t). split; [reflexivity|]. split; [right; eauto|]. split; [exact P|]. split; [auto|].
      intros ->. inversion D.
    + intros (t & E & Q & P & R & Rc). destruct Q as [[-> ->]|(t' & D & ->)].
      * cbn [app] in E. subst rest. now destruct (Rc eq_refl s').
      * injection E as ->. exists t'. split; [reflexivity|]. split; [exact D|]. split; [exact P|]. apply R.
        intros ->. inversion D.
  - assert (N : forall u, s <> c :: u).
    { intros u ->. assert (strip_prefix [c] (c :: u) = Some u) by (apply strip_prefix_spec; reflexivity). congruence. }
    split.
    + intros [= <- <-]. exists []. split; [reflexivity|]. split; [left; auto|]. split; [constructor|]. split; [intros Q; now destruct Q|]. auto.
    + intros (t & -> & Q & P & R & _). destruct Q as [[-> ->]|(t' & D & ->)]; [reflexivity|]. exfalso. now apply (N (t' ++ rest)).
Qed.

Lemma part_start c l t : part c l t -> t = [] \/ exists u, t = c :: u.
Proof. intros [[_ ->]|(u & _ & ->)]; eauto. Qed.

Lemma no_digit_dot s : no_digit ("."%char :: s).
Proof. intros c t [= <- <-]. unfold is_digit. cbn. lia. Qed.

Lemma no_digit_parts l m p q : part "-" l p -> part "+" m q -> no_digit (p ++ q).
Proof.
  intros P Q c t E. destruct (part_start _ _ _ P) as [->|[u ->]]; [destruct (part_start _ _ _ Q) as [->|[u ->]]|]; cbn in E;
    try discriminate E; injection E as <- <-; unfold is_digit; cbn; lia.
Qed.

Lemma stops_plus m q : part "+" m q -> stops q.
Proof.
  intros Q c t E. destruct (part_start _ _ _ Q) as [->|[u ->]]; [discriminate E|]. injection E as <- <-.
  split; [|discriminate]. rewrite <- word_b_spec. discriminate.
Qed.

Lemma stops_nil : stops [].
Proof. intros c t Q. discriminate Q. Qed.

(** The two optional parts after the numbers. *)
Lemma parts_read l m p q : part "-" l p -> part "+" m q -> Forall pre_word l -> Forall word m ->
  optional true (lit "-") (p ++ q) = Some (l, q) /\ optional false (lit "+") q = Some (m, []).
Proof.
  intros P Q Fl Fm. split.
  - apply (optional_spec true "-"). exists p. split; [reflexivity|]. split; [exact P|]. split; [exact Fl|]. split; [intros _; exact (stops_plus m q Q)|].
    intros _ u E. destruct (part_start _ _ _ Q) as [->|[u' ->]]; discriminate E.
  - apply (optional_spec false "+"). exists q. rewrite app_nil_r. split; [reflexivity|]. split; [exact Q|]. split; [exact Fm|].
    split; [intros _; exact stops_nil|discriminate].
Qed.

Lemma strip_dot s : strip_prefix dot ("."%char :: s) = Some s.
Proof. now apply strip_prefix_spec. Qed.

Lemma parse_spec s v : parse s = Some v <-> written v s /\ well_formed v.
Proof.
  split.
  - unfold parse. intros H.
    destruct (numeric s) as [[a s1]|] eqn:E1; [|discriminate H]. apply numeric_inv in E1 as (ta & -> & Na & La & _).
    destruct (strip_prefix dot s1) as [s2|] eqn:D1; [|discriminate H]. apply strip_prefix_spec in D1. subst s1.
    destruct (numeric s2) as [[b s3]|] eqn:E2; [|discriminate H]. apply numeric_inv in E2 as (tb & -> & Nb & Lb & _).
    destruct (strip_prefix dot s3) as [s4|] eqn:D2; [|discriminate H]. apply strip_prefix_spec in D2. subst s3.
    destruct (numeric s4) as [[c s5]|] eqn:E3; [|discriminate H]. apply numeric_inv in E3 as (tc & -> & Nc & Lc & _).
    destruct (optional true (lit "-") s5) as [[p s6]|] eqn:O1; [|discriminate H].
    apply (optional_spec true "-") in O1 as (tp & -> & Pp & Fp & _).
    destruct (optional false (lit "+") s6) as [[q s7]|] eqn:O2; [|discriminate H].
    apply (optional_spec false "+") in O2 as (tq & -> & Pq & Fq & _).
    destruct s7; [|discriminate H]. injection H as <-. rewrite app_nil_r. split.
    + exists ta, tb, tc, tp, tq. cbn [t_major t_minor t_patch t_pre t_build]. repeat split; auto; apply Na || apply Nb || apply Nc.
    + repeat split; cbn [t_major t_minor t_patch t_pre t_build]; auto.
  - intros ((ta & tb & tc & tp & tq & Na & Nb & Nc & Pp & Pq & ->) & (La & Lb & Lc) & Fp & Fq). unfold parse.
    rewrite (numeric_app _ ta _ Na La (no_digit_dot _)), strip_dot, (numeric_app _ tb _ Nb Lb (no_digit_dot _)), strip_dot.
    rewrite (numeric_app _ tc _ Nc Lc (no_digit_parts _ _ _ _ Pp Pq)).
    destruct (parts_read _ _ _ _ Pp Pq Fp Fq) as [-> ->]. now destruct v.
Qed.

Lemma join_dotted l : l <> [] -> dotted l (join dot l).
Proof.
  induction l as [|w l IH]; [contradiction|]. intros _. destruct l as [|w' l]; [constructor|].
  change (join dot (w :: w' :: l)) with (w ++ "."%char :: join dot (w' :: l)). constructor. apply IH. discriminate.
Qed.

Lemma dotted_unique l s : dotted l s -> forall t, dotted l t -> s = t.
Proof.
  induction 1 as [w|w l s D IH]; intros t K; inversion K as [|? ? ? D']; subst; try reflexivity.
  - inversion D'.
  - inversion D.
  - now rewrite (IH _ D').
Qed.

Lemma part_unique c l s t : part c l s -> part c l t -> s = t.
Proof.
  intros [[-> ->]|(u & D & ->)] [[E ->]|(u' & D' & ->)]; try reflexivity.
  - inversion D'.
  - subst l. inversion D.
  - now rewrite (dotted_unique _ _ D _ D').
Qed.

Lemma part_shown c l : part c l (match l with [] => [] | _ => c :: join dot l end).
Proof. destruct l as [|w l]; [now left|]. right. exists (join dot (w :: l)). split; [apply join_dotted; discriminate|reflexivity]. Qed.

Lemma show_written v : written v (show v).
Proof.
  exists (dec (t_major v)), (dec (t_minor v)), (dec (t_patch v)),
         (match t_pre v with [] => [] | _ => "-"%char :: join dot (t_pre v) end),
         (match t_build v with [] => [] | _ => "+"%char :: join dot (t_build v) end).
  split; [apply dec_numeral|]. split; [apply dec_numeral|]. split; [apply dec_numeral|]. split; [apply part_shown|]. split; [apply part_shown|].
  unfold show. destruct (t_pre v), (t_build v); reflexivity.
Qed.

Lemma written_unique v s t : written v s -> written v t -> s = t.
Proof.
  intros (a & b & c & p & q & Na & Nb & Nc & Pp & Pq & ->) (a' & b' & c' & p' & q' & Na' & Nb' & Nc' & Pp' & Pq' & ->).
  rewrite (numeral_unique _ _ _ Na Na'), (numeral_unique _ _ _ Nb Nb'), (numeral_unique _ _ _ Nc Nc'),
    (part_unique _ _ _ _ Pp Pp'), (part_unique _ _ _ _ Pq Pq'). reflexivity.
Qed.

Lemma skip_spaces_digit a s : a <> [] -> Forall is_digit a -> skip_spaces (a ++ s) = a ++ s.
Proof.
  intros N F. destruct a as [|c a]; [contradiction|]. inversion F as [|? ? D F']; subst. cbn [app skip_spaces].
  destruct (N.eqb_spec (N_of_ascii c) 32) as [E|E]; [|reflexivity]. unfold is_digit in D. lia.
Qed.

(** A written version, after an operator or none, is read as the requirement with its components. *)
Lemma written_req v s op : written v s -> well_formed v ->
  read_req (match op with Caret => s | GreaterEq => lit ">=" ++ s end) =
  Some [mkc op (t_major v) (Some (t_minor v)) (Some (t_patch v)) (t_pre v)].
Proof.
  intros (ta & tb & tc & tp & tq & Na & Nb & Nc & Pp & Pq & ->) ((La & Lb & Lc) & Fp & Fq).
  assert (Ka : skip_spaces (ta ++ "."%char :: tb ++ "."%char :: tc ++ tp ++ tq) = ta ++ "."%char :: tb ++ "."%char :: tc ++ tp ++ tq).
  { destruct Na as (N & F & _). now apply skip_spaces_digit. }
  assert (R : forall op', op' = op ->
     match numeric (skip_spaces (ta ++ "."%char :: tb ++ "."%char :: tc ++ tp ++ tq)) with
     | None => None
     | Some (a, s1) =>
      match component s1 with
      | None => None
      | Some (b, s2) =>
          match component s2 with
          | None => None
          | Some (c, s3) =>
              match (match c with Some _ => optional true (lit "-") s3 | None => Some ([], s3) end) with
              | None => None
              | Some (p, s4) =>
                  match (match c with Some _ => optional false (lit "+") s4 | None => Some ([], s4) end) with
                  | None => None
                  | Some (_, s5) => Some (mkc op' a b c p, skip_spaces s5)
                  end
              end
          end
      end
     end = Some (mkc op (t_major v) (Some (t_minor v)) (Some (t_patch v)) (t_pre v), [])).
  { intros op' ->. rewrite Ka. rewrite (numeric_app _ ta _ Na La (no_digit_dot _)). unfold component.
    rewrite strip_dot, (numeric_app _ tb _ Nb Lb (no_digit_dot _)), strip_dot.
    rewrite (numeric_app _ tc _ Nc Lc (no_digit_parts _ _ _ _ Pp Pq)).
    destruct (parts_read _ _ _ _ Pp Pq Fp Fq) as [-> ->]. reflexivity. }
  unfold read_req. destruct op.
  - rewrite Ka. unfold read_comparator.
    assert (S0 : strip_prefix (lit ">=") (ta ++ "."%char :: tb ++ "."%char :: tc ++ tp ++ tq) = None).
    { destruct (strip_prefix (lit ">=") (ta ++ "."%char :: tb ++ "."%char :: tc ++ tp ++ tq)) eqn:E; [|reflexivity].
      apply strip_prefix_spec in E. destruct Na as (N & F & _). destruct ta as [|x ta]; [contradiction|]. inversion F as [|? ? D F']; subst.
      injection E as -> _. unfold is_digit in D. cbn in D. lia. }
    rewrite S0, (R Caret eq_refl). reflexivity.
  - change (skip_spaces (lit ">=" ++ ta ++ "."%char :: tb ++ "."%char :: tc ++ tp ++ tq)) with (lit ">=" ++ ta ++ "."%char :: tb ++ "."%char :: tc ++ tp ++ tq).
    unfold read_comparator. rewrite (proj2 (strip_prefix_spec (lit ">=") _ _) eq_refl), (R GreaterEq eq_refl). reflexivity.
Qed.

(** Comparing prerelease words as text is comparing the identifiers. *)
Lemma seg_cmp_eq a b : pre_word a -> pre_word b -> seg_cmp a b = ident_cmp (classify a) (classify b).
Proof.
  intros [[Na _] Za] [[Nb _] Zb]. unfold seg_cmp, classify.
  destruct (forallb digit_b a) eqn:Fa, (forallb digit_b b) eqn:Fb; cbn [ident_cmp]; try reflexivity.
  apply digits_spec in Fa, Fb. apply numeral_cmp; auto.
Qed.

Lemma segs_cmp_eq a : forall b, Forall pre_word a -> Forall pre_word b -> segs_cmp a b = idents_cmp (map classify a) (map classify b).
Proof.
  induction a as [|x a IH]; intros [|y b] Fa Fb; try reflexivity. inversion Fa as [|? ? Wx Fa']; subst. inversion Fb as [|? ? Wy Fb']; subst.
  cbn [segs_cmp map idents_cmp]. rewrite (seg_cmp_eq x y Wx Wy), (IH b Fa' Fb'). reflexivity.
Qed.

Lemma tpre_cmp_eq a b : Forall pre_word a -> Forall pre_word b -> tpre_cmp a b = pre_cmp (map classify a) (map classify b).
Proof.
  intros Fa Fb. destruct a as [|x a], b as [|y b]; try reflexivity.
  change (segs_cmp (x :: a) (y :: b) = idents_cmp (map classify (x :: a)) (map classify (y :: b))). now apply segs_cmp_eq.
Qed.

Lemma as_version_req_eq v : well_formed v ->
  as_version_req v = Ret [mkc Caret (t_major v) (Some (t_minor v)) (Some (t_patch v)) (t_pre v)].
Proof. intros W. unfold as_version_req. rewrite (written_req v (show v) Caret (show_written v) W). reflexivity. Qed.

Lemma matches_req_eq c v : well_formed c -> well_formed v ->
  matches_req [mkc Caret (t_major c) (Some (t_minor c)) (Some (t_patch c)) (t_pre c)] v = req_matches (core c) (core v).
Proof.
  intros (_ & Fc & _) (_ & Fv & _). unfold matches_req, req_matches, core, satisfied, caret, matches_caret, tpre_compatible, pre_is_compatible.
  cbn [forallb existsb c_op c_major c_minor c_patch c_pre v_major v_minor v_patch v_pre].
  rewrite !andb_true_r, !orb_false_r, (tpre_cmp_eq _ _ Fv Fc).
  destruct (t_pre v) eqn:Ev, (t_pre c) eqn:Ec; reflexivity.
Qed.
