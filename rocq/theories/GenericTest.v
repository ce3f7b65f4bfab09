(** What the tests of generic arguments read from the tool's output
    (cargo-test-fuzz/tests/integration/generic_args.rs). *)
From Coq Require Import List Ascii String Bool Arith NArith Lia Sorted.
From Verif Require Import Base Utf8 Semver.
Import ListNotations.

(** [slice::sort] (std) of texts, which are compared by their bytes.  Simplification: the
    algorithm; equal texts cannot be told apart. *)
Fixpoint sort_insert (x : str) (l : list str) : list str :=
  match l with
  | [] => [x]
  | y :: l' => match str_cmp x y with Gt => y :: sort_insert x l' | _ => x :: l end
  end.
Definition sort (l : list str) : list str := fold_right sort_insert [] l.

(** cargo-test-fuzz/tests/integration/generic_args.rs:74-84: what follows the first colon and
    space in each line, sorted; the [unwrap]s are explicit. *)
Definition seen_texts (out : bytes) : outcome (list str) :=
  if valid_utf8 out then
    bind (mapM (fun l => match str_find (lit ": ") l with Some n => Ret (skipn (n + 2) l) | None => Panic end) (lines out))
         (fun l => Ret (sort l))
  else Panic.

Lemma sort_insert_in x l y : In y (sort_insert x l) <-> y = x \/ In y l.
Proof.
  induction l as [|z l IH]; cbn [sort_insert]; [cbn; intuition|].
  destruct (str_cmp x z); cbn [In]; rewrite ?IH; intuition.
Qed.

Lemma sort_in l y : In y (sort l) <-> In y l.
Proof. induction l as [|x l IH]; [reflexivity|]. cbn [sort fold_right]. fold (sort l). rewrite sort_insert_in, IH. cbn. intuition. Qed.

Lemma ascii_lt_trans a b c : ascii_lt a b -> ascii_lt b c -> ascii_lt a c.
Proof.
  intros H. revert c. induction H as [y b|x y a b H|x a b H IH]; intros c Q.
  - inversion Q; constructor.
  - inversion Q; subst; constructor; [lia|exact H].
  - inversion Q; subst; [now apply asl_head|apply asl_tail; auto].
Qed.

Lemma ascii_lt_irrefl a : ~ ascii_lt a a.
Proof. intros H. remember a as b in H at 1. assert (E : b = a) by congruence. clear Heqb. induction H; try discriminate; injection E; intros; subst; [lia|auto]. Qed.

Lemma sort_sorted l : NoDup l -> StronglySorted ascii_lt (sort l).
Proof.
  intros N. induction N as [|x l NI N IH]; [constructor|]. cbn [sort fold_right]. fold (sort l).
  assert (NI' : ~ In x (sort l)) by now rewrite sort_in. clear NI N. revert NI'. induction IH as [|y s S IHs F]; intros NI; cbn [sort_insert]; [repeat constructor|].
  pose proof (str_cmp_spec x y) as C. destruct (str_cmp x y).
  - subst y. elim NI. now left.
  - constructor; [now constructor|]. constructor; [exact C|]. eapply Forall_impl; [|exact F]. intros z. now apply ascii_lt_trans.
  - constructor; [apply IHs; intros I; apply NI; now right|]. apply Forall_forall. intros z I. apply sort_insert_in in I as [->|I]; [exact C|].
    rewrite Forall_forall in F. now apply F.
Qed.

(** A strictly sorted list is determined by its elements. *)
Lemma sorted_unique l l' :
  StronglySorted ascii_lt l -> StronglySorted ascii_lt l' -> (forall x, In x l <-> In x l') -> l = l'.
Proof.
  intros H. revert l'. induction H as [|x l S IH F]; intros l' S' E.
  - destruct l' as [|y l']; [reflexivity|]. destruct (proj2 (E y) (or_introl eq_refl)).
  - destruct S' as [|y l' S' F']; [destruct (proj1 (E x) (or_introl eq_refl))|].
    rewrite Forall_forall in F, F'.
    assert (x = y) as ->.
    { destruct (proj1 (E x) (or_introl eq_refl)) as [->|I]; [reflexivity|]. destruct (proj2 (E y) (or_introl eq_refl)) as [->|J]; [reflexivity|].
      exfalso. apply (ascii_lt_irrefl x). eapply ascii_lt_trans; [apply F, J|apply F', I]. }
    f_equal. apply IH; [exact S'|]. intros z. split; intros I.
    + destruct (proj1 (E z) (or_intror I)) as [<-|J]; [|exact J]. exfalso. exact (ascii_lt_irrefl _ (F _ I)).
    + destruct (proj2 (E z) (or_intror I)) as [<-|J]; [|exact J]. exfalso. exact (ascii_lt_irrefl _ (F' _ I)).
Qed.
