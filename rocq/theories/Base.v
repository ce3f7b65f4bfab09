(** Byte strings and the parts of Rust's [str] library the project uses.

    A Rust [&str]/[String]/[Vec<u8>]/[OsString] is modelled by the list of its
    bytes ([list ascii], one element per byte).  Simplification: UTF-8 validity is
    not part of the type; where it matters (slicing, [String::from_utf8]) it is
    modelled explicitly in the file concerned. *)
From Coq Require Import List Ascii String Bool Arith Lia.
Import ListNotations.

(** A Rust string or byte vector, as the list of its bytes. *)
Notation str := (list ascii).
Notation bytes := (list ascii).

(** String literals. *)
Definition lit (s : string) : str := list_ascii_of_string s.

(** [==] on strings. *)
Definition str_dec (a b : str) : {a = b} + {a <> b} := list_eq_dec ascii_dec a b.
Definition str_eqb (a b : str) : bool := if str_dec a b then true else false.

(** [str::starts_with] (std). *)
Fixpoint starts_with (p s : str) : bool :=
  match p, s with
  | [], _ => true
  | a :: p', b :: s' => if ascii_dec a b then starts_with p' s' else false
  | _ :: _, [] => false
  end.

(** [str::strip_prefix] (std). *)
Definition strip_prefix (p s : str) : option str :=
  if starts_with p s then Some (skipn (List.length p) s) else None.

(** [str::strip_suffix] (std). *)
Definition strip_suffix (x s : str) : option str :=
  let n := List.length s - List.length x in
  if str_eqb (skipn n s) x then Some (firstn n s) else None.

(** [str::find] (std): byte offset of the first occurrence of the pattern. *)
Fixpoint str_find (p s : str) : option nat :=
  if starts_with p s then Some 0
  else match s with
       | [] => None
       | _ :: s' => option_map S (str_find p s')
       end.

(** [str::contains] (std). *)
Definition contains (p s : str) : bool :=
  match str_find p s with Some _ => true | None => false end.

(** [str::replace(char, &str)] with a one-byte replacement (std). *)
Definition replace_char (a b : ascii) (s : str) : str :=
  map (fun c => if ascii_dec c a then b else c) s.

(** Line feed, carriage return. *)
Definition LF : ascii := Ascii.ascii_of_nat 10.
Definition CR : ascii := Ascii.ascii_of_nat 13.

(** [str::split_inclusive('\n')] (std): pieces ending in LF, plus a last
    non-empty piece without. *)
Fixpoint split_inclusive (s : str) : list str :=
  match s with
  | [] => []
  | c :: s' =>
      if ascii_dec c LF then [c] :: split_inclusive s'
      else match split_inclusive s' with
           | [] => [[c]]
           | l :: ls => (c :: l) :: ls
           end
  end.

(** Removal of the line terminator as in [str::lines] and [BufRead::lines] (std):
    a final LF is removed, and if there was one, a CR before it. *)
Definition chomp (l : str) : str :=
  match strip_suffix [LF] l with
  | None => l
  | Some l1 => match strip_suffix [CR] l1 with
               | None => l1
               | Some l2 => l2
               end
  end.

(** [str::lines] and [BufRead::lines] (std). *)
Definition lines (s : str) : list str := map chomp (split_inclusive s).

(** [slice::join(&str)] (std). *)
Fixpoint join (sep : str) (l : list str) : str :=
  match l with
  | [] => []
  | [x] => x
  | x :: l' => x ++ sep ++ join sep l'
  end.

(** * Specifications (independent of the functions above) *)

(** [p] occurs in [s] at offset [i]. *)
Definition occurs_at (p s : str) (i : nat) : Prop :=
  exists a b, s = a ++ p ++ b /\ List.length a = i.

(** [p] occurs somewhere in [s]. *)
Definition occurs (p s : str) : Prop := exists a b, s = a ++ p ++ b.

(** * Lemmas *)

Lemma str_eqb_eq a b : str_eqb a b = true <-> a = b.
Proof. unfold str_eqb; destruct (str_dec a b); intuition congruence. Qed.

Lemma str_eqb_neq a b : str_eqb a b = false <-> a <> b.
Proof. unfold str_eqb; destruct (str_dec a b); intuition congruence. Qed.

Lemma str_eqb_refl a : str_eqb a a = true.
Proof. apply str_eqb_eq; reflexivity. Qed.

Lemma lit_app a b : lit (a ++ b) = lit a ++ lit b.
Proof. unfold lit. induction a; simpl; congruence. Qed.

Lemma starts_with_spec p s : starts_with p s = true <-> exists t, s = p ++ t.
Proof.
  revert s; induction p as [|a p IH]; intros s; simpl.
  - split; eauto.
  - destruct s as [|b s].
    + split; [discriminate|]. intros [t H]; discriminate.
    + destruct (ascii_dec a b) as [->|n].
      * rewrite IH. split; intros [t H]; exists t; congruence.
      * split; [discriminate|]. intros [t H]; congruence.
Qed.

Lemma strip_prefix_spec p s t : strip_prefix p s = Some t <-> s = p ++ t.
Proof.
  unfold strip_prefix. destruct (starts_with p s) eqn:E.
  - apply starts_with_spec in E as [u ->].
    rewrite skipn_app, skipn_all, Nat.sub_diag. simpl.
    split; [intros [= ->]; reflexivity|]. intros H. apply app_inv_head in H. congruence.
  - split; [discriminate|]. intros ->.
    assert (starts_with p (p ++ t) = true) by (apply starts_with_spec; eauto). congruence.
Qed.

Lemma strip_suffix_spec x s t : strip_suffix x s = Some t <-> s = t ++ x.
Proof.
  unfold strip_suffix. set (n := List.length s - List.length x).
  destruct (str_eqb (skipn n s) x) eqn:E.
  - apply str_eqb_eq in E. split.
    + intros [= <-]. rewrite <- E. symmetry; apply firstn_skipn.
    + intros H. f_equal. subst s. unfold n. rewrite app_length.
      replace (List.length t + List.length x - List.length x) with (List.length t) by lia.
      rewrite firstn_app, Nat.sub_diag, firstn_all. simpl. apply app_nil_r.
  - split; [discriminate|]. intros ->. apply str_eqb_neq in E. exfalso; apply E.
    unfold n. rewrite app_length.
    replace (List.length t + List.length x - List.length x) with (List.length t) by lia.
    rewrite skipn_app, Nat.sub_diag, skipn_all. reflexivity.
Qed.

Lemma strip_suffix_app x t : strip_suffix x (t ++ x) = Some t.
Proof. apply strip_suffix_spec; reflexivity. Qed.

Lemma strip_suffix_none x s : strip_suffix x s = None <-> forall t, s <> t ++ x.
Proof.
  destruct (strip_suffix x s) as [u|] eqn:E.
  - apply strip_suffix_spec in E. split; [discriminate|]. intros H; exfalso; eapply H; eauto.
  - split; [|reflexivity]. intros _ t H. apply strip_suffix_spec in H. congruence.
Qed.

Lemma str_find_some p s i :
  str_find p s = Some i ->
  occurs_at p s i /\ forall j, j < i -> ~ occurs_at p s j.
Proof.
  revert i; induction s as [|c s IH]; intros i; cbn [str_find].
  - destruct (starts_with p []) eqn:E; [|discriminate].
    intros [= <-]. apply starts_with_spec in E as [t E]. split; [|lia].
    exists [], t. simpl; auto.
  - destruct (starts_with p (c :: s)) eqn:E.
    + intros [= <-]. apply starts_with_spec in E as [t E]. split; [|lia].
      exists [], t. simpl; auto.
    + destruct (str_find p s) as [k|] eqn:F; [|discriminate]. simpl. intros [= <-].
      destruct (IH k eq_refl) as [(a & b & H1 & H2) H3]. split.
      * exists (c :: a), b. subst. simpl; auto.
      * intros j Hj (a' & b' & G1 & G2). destruct a' as [|d a'].
        -- assert (starts_with p (c :: s) = true) by (apply starts_with_spec; exists b'; exact G1).
           congruence.
        -- simpl in G1. injection G1 as -> G1. apply (H3 (List.length a')).
           { simpl in G2. lia. }
           exists a', b'. auto.
Qed.

Lemma str_find_none p s : str_find p s = None -> ~ occurs p s.
Proof.
  induction s as [|c s IH]; cbn [str_find].
  - destruct (starts_with p []) eqn:E; [discriminate|]. intros _ (a & b & H).
    destruct a; [|discriminate].
    assert (starts_with p [] = true) by (apply starts_with_spec; exists b; exact H). congruence.
  - destruct (starts_with p (c :: s)) eqn:E; [discriminate|].
    destruct (str_find p s) eqn:F; [discriminate|]. intros _ (a & b & H).
    destruct a as [|d a].
    + assert (starts_with p (c :: s) = true) by (apply starts_with_spec; exists b; exact H).
      congruence.
    + simpl in H. injection H as -> H. apply IH; [reflexivity|]. exists a, b; auto.
Qed.

Lemma str_find_first p s i :
  occurs_at p s i -> (forall j, j < i -> ~ occurs_at p s j) -> str_find p s = Some i.
Proof.
  intros H1 H2. destruct (str_find p s) as [k|] eqn:E.
  - apply str_find_some in E as [H3 H4]. f_equal.
    destruct (lt_eq_lt_dec k i) as [[H|H]|H]; auto.
    + exfalso; eapply H2; eauto.
    + exfalso; eapply H4; eauto.
  - apply str_find_none in E. exfalso; apply E. destruct H1 as (a & b & H & _). exists a, b; auto.
Qed.

Lemma contains_spec p s : contains p s = true <-> occurs p s.
Proof.
  unfold contains. destruct (str_find p s) as [i|] eqn:E.
  - apply str_find_some in E as [(a & b & H & _) _]. split; auto. intros _; exists a, b; auto.
  - apply str_find_none in E. split; [discriminate|]. intros H; contradiction.
Qed.

Lemma replace_char_length a b s : List.length (replace_char a b s) = List.length s.
Proof. apply map_length. Qed.

Lemma replace_char_no a b s : a <> b -> ~ In a (replace_char a b s).
Proof.
  intros n H. unfold replace_char in H. apply in_map_iff in H as (c & H & _).
  destruct (ascii_dec c a); congruence.
Qed.

Lemma replace_char_id a b s : ~ In a s -> replace_char a b s = s.
Proof.
  induction s as [|c s IH]; intros H; simpl; [reflexivity|].
  destruct (ascii_dec c a) as [->|]; [exfalso; apply H; left; reflexivity|].
  f_equal. apply IH. intros K; apply H; right; exact K.
Qed.

(** ** Lines *)

Lemma split_inclusive_line l s :
  ~ In LF l -> split_inclusive (l ++ LF :: s) = (l ++ [LF]) :: split_inclusive s.
Proof.
  induction l as [|c l IH]; intros H; cbn [app split_inclusive].
  - destruct (ascii_dec LF LF); [reflexivity|contradiction].
  - destruct (ascii_dec c LF) as [->|n]; [exfalso; apply H; left; reflexivity|].
    rewrite IH; [reflexivity|]. intros K; apply H; right; exact K.
Qed.

Lemma split_inclusive_last l :
  ~ In LF l -> l <> [] -> split_inclusive l = [l].
Proof.
  induction l as [|c l IH]; intros H n; [contradiction|]. cbn [split_inclusive].
  destruct (ascii_dec c LF) as [->|nc]; [exfalso; apply H; left; reflexivity|].
  destruct l as [|d l]; [reflexivity|].
  rewrite IH; [reflexivity| |discriminate]. intros K; apply H; right; exact K.
Qed.

Lemma split_inclusive_concat s : List.concat (split_inclusive s) = s.
Proof.
  induction s as [|c s IH]; [reflexivity|]. cbn [split_inclusive].
  destruct (ascii_dec c LF) as [->|n]; cbn [List.concat app].
  - now rewrite IH.
  - destruct (split_inclusive s) as [|l ls]; cbn [List.concat app] in *; congruence.
Qed.

Lemma split_inclusive_app l s :
  split_inclusive ((l ++ [LF]) ++ s) = split_inclusive (l ++ [LF]) ++ split_inclusive s.
Proof.
  induction l as [|c l IH]; cbn [app split_inclusive].
  - destruct (ascii_dec LF LF); [reflexivity|contradiction].
  - destruct (ascii_dec c LF) as [->|n].
    + cbn [app]. f_equal. exact IH.
    + rewrite IH. destruct (split_inclusive (l ++ [LF])) as [|x xs] eqn:E.
      * exfalso. pose proof (split_inclusive_concat (l ++ [LF])) as H. rewrite E in H.
        cbn in H. destruct l; discriminate.
      * reflexivity.
Qed.

Lemma chomp_lf l : (forall t, l <> t ++ [CR]) -> chomp (l ++ [LF]) = l.
Proof.
  intros H. unfold chomp. rewrite strip_suffix_app.
  destruct (strip_suffix [CR] l) as [t|] eqn:E; [|reflexivity].
  apply strip_suffix_spec in E. exfalso; eapply H; eauto.
Qed.

Lemma chomp_crlf l : chomp ((l ++ [CR]) ++ [LF]) = l.
Proof. unfold chomp. rewrite !strip_suffix_app. reflexivity. Qed.

Lemma chomp_no_lf l : ~ In LF l -> chomp l = l.
Proof.
  intros H. unfold chomp. destruct (strip_suffix [LF] l) as [t|] eqn:E; [|reflexivity].
  apply strip_suffix_spec in E. subst l. exfalso; apply H. apply in_or_app; right; left; reflexivity.
Qed.

Lemma lines_app l s : lines ((l ++ [LF]) ++ s) = lines (l ++ [LF]) ++ lines s.
Proof. unfold lines. rewrite split_inclusive_app, map_app. reflexivity. Qed.

(** * Outcomes

    A Rust function returning [Result<A>] that may also panic.  [Err] carries the
    text of the error, [Panic] stands for a panic (failed assertion, [unwrap] on
    [None], [unreachable!], slice index error, arithmetic overflow). *)
Inductive outcome (A : Type) : Type :=
| Ret (a : A)
| Err (e : str)
| Panic.
Arguments Ret {A} a.
Arguments Err {A} e.
Arguments Panic {A}.

(** The [?] operator. *)
Definition bind {A B} (x : outcome A) (f : A -> outcome B) : outcome B :=
  match x with Ret a => f a | Err e => Err e | Panic => Panic end.

(** [iter().map(f).collect::<Result<Vec<_>>>()] (std): stops at the first error. *)
Fixpoint mapM {A B} (f : A -> outcome B) (l : list A) : outcome (list B) :=
  match l with
  | [] => Ret []
  | a :: l' => bind (f a) (fun b => bind (mapM f l') (fun bs => Ret (b :: bs)))
  end.

Lemma mapM_ret A B (f : A -> outcome B) l bs :
  mapM f l = Ret bs <-> Forall2 (fun a b => f a = Ret b) l bs.
Proof.
  revert bs; induction l as [|a l IH]; intros bs; simpl.
  - split; [intros [= <-]; constructor|]. intros H; inversion H; reflexivity.
  - destruct (f a) as [b|e|] eqn:E; simpl.
    + destruct (mapM f l) as [cs|e|] eqn:F; simpl.
      * split.
        -- intros [= <-]. constructor; auto. apply IH; reflexivity.
        -- intros H; inversion H; subst. rewrite E in H2. injection H2 as ->.
           apply IH in H4. congruence.
      * split; [discriminate|]. intros H; inversion H; subst. apply IH in H4. discriminate.
      * split; [discriminate|]. intros H; inversion H; subst. apply IH in H4. discriminate.
    + split; [discriminate|]. intros H; inversion H; subst. congruence.
    + split; [discriminate|]. intros H; inversion H; subst. congruence.
Qed.
