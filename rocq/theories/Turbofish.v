(** Inserting [::] before generic arguments (macro/src/type_utils.rs:52-103). *)
From Coq Require Import List Ascii String Bool Arith Lia.
From Verif Require Import Base Syntax.
Import ListNotations.
Local Open Scope nat_scope.

Definition is_colon (a : option tok) : bool := match a with Some a => tok_eqb a (tk ":") | None => false end.

(** [self.tokens[i..i + n] == path_args_tokens] for the tokens from [i] on. *)
Fixpoint starts (l ts : list tok) : bool :=
  match l, ts with
  | [], _ => true
  | a :: l, b :: ts => tok_eqb a b && starts l ts
  | _ :: _, [] => false
  end.

(** macro/src/type_utils.rs:72-93: the loop over [i]; [p] and [q] are the tokens at
    [i - 2] and [i - 1], [ts] those from [i] on. *)
Fixpoint scan (l : list tok) (p q : option tok) (ts : list tok) : list tok :=
  match ts with
  | [] => []
  | a :: r =>
      if starts l ts && negb (is_colon p && is_colon q)
      then tk ":" :: tk ":" :: a :: scan l (Some (tk ":")) (Some a) r
      else a :: scan l q (Some a) r
  end.

(** The argument lists in the order in which [visit_path_arguments] sees them: outer ones
    before those inside them, the self type of a path before its segments. *)
Section Lists.
  Variable f : rty -> list (list tok).
  Variable p : rty -> list tok.
  Definition glists (a : garg rty) : list (list tok) := match a with GType t | GAssoc _ t => f t | _ => [] end.
  Definition alists (a : pargs rty) : list (list tok) :=
    match a with
    | ANone => []
    | AAngle c l => atoks p (AAngle c l) :: List.concat (map glists l)
    | AParen ins out => atoks p (AParen ins out) :: List.concat (map f ins) ++ match out with Some t => f t | None => [] end
    end.
  Definition slists (l : list seg) : list (list tok) := List.concat (map (fun s => alists (snd s)) l).
End Lists.

Fixpoint arg_lists (t : rty) : list (list tok) :=
  match t with
  | RPath q _ segs => match q with Some (t, _) => arg_lists t | None => [] end ++ slists arg_lists toks segs
  | RRef _ _ t | RPtr _ t | RSlice t | RArray t _ | RParen t => arg_lists t
  | RTuple ts => List.concat (map arg_lists ts)
  | RFn ins out => List.concat (map arg_lists ins) ++ match out with Some t => arg_lists t | None => [] end
  | RBounds _ bs => List.concat (map (fun b => slists arg_lists toks (snd b)) bs)
  | ROther _ => []
  end.

Definition scan_all (ls : list (list tok)) (ts : list tok) : list tok := fold_left (fun ts l => scan l None None ts) ls ts.

(** macro/src/type_utils.rs:59-64 [type_as_turbofish]. *)
Definition type_as_turbofish (t : rty) : list tok := scan_all (arg_lists t) (toks t).
(** macro/src/type_utils.rs:52-57 [path_as_turbofish]. *)
Definition path_as_turbofish (p : rpath) : list tok := scan_all (slists arg_lists toks (snd p)) (pathtoks toks (fst p) (snd p)).

(** ** Specification *)

(** [l'] is [l] with [::] inserted in places. *)
Inductive with_colons : list tok -> list tok -> Prop :=
  | wc_nil : with_colons [] []
  | wc_keep a l l' : with_colons l l' -> with_colons (a :: l) (a :: l')
  | wc_add l l' : with_colons l l' -> with_colons l (tk ":" :: tk ":" :: l').

Definition ends_in_colons (l : list tok) : Prop := exists l', l = l' ++ colon2.

(** One insertion: before an occurrence of one of the lists, where there is no [::] yet. *)
Inductive insertions (ls : list (list tok)) : list tok -> list tok -> Prop :=
  | ins_none l : insertions ls l l
  | ins_one a l b l' : In l ls -> ~ ends_in_colons a -> insertions ls (a ++ colon2 ++ l ++ b) l' -> insertions ls (a ++ l ++ b) l'.

(** The point between [a] and [r] has [::] before it in [out], and what follows begins as [r] does. *)
Definition preceded (a r out : list tok) : Prop :=
  exists a' r', out = a' ++ r' /\ with_colons a a' /\ with_colons r r' /\ ends_in_colons a' /\ hd_error r' = hd_error r.

(** ** Proofs *)

Lemma starts_spec l ts : starts l ts = true <-> exists b, ts = l ++ b.
Proof.
  revert ts. induction l as [|a l IH]; intros ts.
  - split; [|reflexivity]. intros _. now exists ts.
  - destruct ts as [|c ts]; cbn [starts app].
    + split; [discriminate|]. intros [b E]. discriminate E.
    + rewrite andb_true_iff, tok_eqb_spec, IH. split.
      * intros [-> [b ->]]. now exists b.
      * intros [b E]. injection E as -> ->. eauto.
Qed.
Lemma is_colon_spec p : is_colon p = true <-> p = Some (tk ":").
Proof. destruct p as [a|]; cbn [is_colon]; [rewrite (tok_eqb_spec a)|]; split; congruence. Qed.

(** The last two tokens. *)
Definition last1 (q : option tok) (l : list tok) : option tok := match rev l with a :: _ => Some a | [] => q end.
Definition last2 (p q : option tok) (l : list tok) : option tok := match rev l with _ :: b :: _ => Some b | [_] => q | [] => p end.

Lemma ends_spec l : ends_in_colons l <-> is_colon (last2 None None l) && is_colon (last1 None l) = true.
Proof.
  unfold ends_in_colons, last2, last1. split.
  - intros [l' ->]. rewrite rev_app_distr. reflexivity.
  - destruct (rev l) as [|b [|a r]] eqn:R; [discriminate|discriminate|]. intros E. apply andb_true_iff in E as [E1 E2].
    apply is_colon_spec in E1, E2. exists (rev r). rewrite <- (rev_involutive l), R. cbn [rev]. rewrite <- app_assoc.
    injection E1 as ->. injection E2 as ->. reflexivity.
Qed.

Lemma last_snoc l a : last1 None (l ++ [a]) = Some a /\ last2 None None (l ++ [a]) = last1 None l.
Proof. unfold last1, last2. rewrite rev_app_distr. cbn. split; [reflexivity|]. now destruct (rev l). Qed.

Lemma with_colons_refl l : with_colons l l.
Proof. induction l; constructor; auto. Qed.
Lemma with_colons_app a a' b b' : with_colons a a' -> with_colons b b' -> with_colons (a ++ b) (a' ++ b').
Proof. induction 1; intros H'; cbn [app]; [exact H'| |]; constructor; auto. Qed.
Lemma with_colons_trans b c : with_colons b c -> forall a, with_colons a b -> with_colons a c.
Proof.
  assert (A : forall n b c a, List.length c <= n -> with_colons b c -> with_colons a b -> with_colons a c).
  { induction n as [|n IH]; intros b0 c0 a L H H'.
    - destruct H; [exact H'| |]; cbn in L; lia.
    - destruct H as [|x b0 c0 H|b0 c0 H]; [exact H'| |].
      + cbn in L. remember (x :: b0) as bb eqn:E. destruct H' as [|y l l' H'|l l' H']; [discriminate| |].
        * injection E as -> ->. constructor. apply (IH b0); auto. lia.
        * injection E as E1 E2. subst x b0. remember (tk ":" :: l') as m eqn:Em. destruct H as [|z m' c0 H|m' c0 H]; [discriminate| |].
          -- injection Em as E1 E2. subst z m'. constructor. apply (IH l'); auto. cbn in L. lia.
          -- subst m'. (* ": ::" then ":" *)
             change (tk ":" :: tk ":" :: tk ":" :: c0) with ([tk ":"; tk ":"] ++ tk ":" :: c0). cbn [app]. constructor.
             apply (IH (tk ":" :: tk ":" :: l')).
             ++ cbn [List.length] in *. lia.
             ++ constructor. exact H.
             ++ now constructor.
      + constructor. apply (IH b0); auto. cbn in L. lia. }
  intros H a H'. now apply (A (List.length c) b c a).
Qed.
Lemma with_colons_split a b c : with_colons (a ++ b) c -> exists a' b', c = a' ++ b' /\ with_colons a a' /\ with_colons b b'.
Proof.
  remember (a ++ b) as ab eqn:E. intros H. revert a b E. induction H as [|x l l' H IH|l l' H IH]; intros a b E.
  - destruct a, b; try discriminate. exists [], []. repeat split; constructor.
  - destruct a as [|y a].
    + cbn in E. subst b. exists [], (x :: l'). repeat split; [constructor|]. now constructor.
    + injection E as -> ->. destruct (IH a b eq_refl) as (a' & b' & -> & A & B). exists (y :: a'), b'. repeat split; auto. now constructor.
  - destruct (IH a b E) as (a' & b' & -> & A & B). exists (tk ":" :: tk ":" :: a'), b'. repeat split; auto. now constructor.
Qed.

Lemma scan_with_colons l : forall ts p q, with_colons ts (scan l p q ts).
Proof.
  induction ts as [|a r IH]; intros p q; [constructor|]. cbn [scan]. destruct (_ && _); repeat constructor; apply IH.
Qed.
Lemma scan_all_with_colons ls : forall ts, with_colons ts (scan_all ls ts).
Proof.
  induction ls as [|l ls IH]; intros ts; [apply with_colons_refl|]. cbn [scan_all fold_left]. eapply with_colons_trans; [apply IH|apply scan_with_colons].
Qed.

Lemma insertions_trans ls a b c : insertions ls a b -> insertions ls b c -> insertions ls a c.
Proof. induction 1; intros H'; [exact H'|]. econstructor; eauto. Qed.

Lemma scan_insertions l : forall r pre,
  insertions [l] (pre ++ r) (pre ++ scan l (last2 None None pre) (last1 None pre) r).
Proof.
  induction r as [|a r IH]; intros pre; [constructor|]. cbn [scan]. destruct (starts l (a :: r) && _) eqn:E.
  - apply andb_true_iff in E as [E1 E2]. apply starts_spec in E1 as [b E1]. rewrite E1. apply ins_one; [now left| |].
    + intros H. apply ends_spec in H. rewrite H in E2. discriminate.
    + rewrite <- E1. specialize (IH (pre ++ [tk ":"; tk ":"; a])).
      change [tk ":"; tk ":"; a] with ([tk ":"; tk ":"] ++ [a]) in IH. rewrite app_assoc in IH.
      destruct (last_snoc (pre ++ [tk ":"; tk ":"]) a) as [L1 L2]. rewrite L1, L2 in IH.
      assert (L3 : last1 None (pre ++ [tk ":"; tk ":"]) = Some (tk ":")) by (unfold last1; now rewrite rev_app_distr).
      rewrite L3 in IH. rewrite <- !app_assoc in IH. exact IH.
  - specialize (IH (pre ++ [a])). destruct (last_snoc pre a) as [L1 L2]. rewrite L1, L2, <- !app_assoc in IH. exact IH.
Qed.

Lemma insertions_mono ls ls' a b : (forall l, In l ls -> In l ls') -> insertions ls a b -> insertions ls' a b.
Proof. intros S0. induction 1; [constructor|]. econstructor; eauto. Qed.

Lemma scan_all_insertions ls ts : insertions ls ts (scan_all ls ts).
Proof.
  revert ts. assert (G : forall ls' ts, (forall l, In l ls' -> In l ls) -> insertions ls ts (scan_all ls' ts)).
  { induction ls' as [|l ls' IH]; intros ts S0; [constructor|]. cbn [scan_all fold_left]. eapply insertions_trans.
    - eapply insertions_mono; [|apply (scan_insertions l ts [])]. intros x [<-|[]]. apply S0. now left.
    - apply IH. intros x I. apply S0. now right. }
  intros ts. now apply G.
Qed.

Lemma scan_app l : forall a pre r, exists a', with_colons a a' /\
  scan l (last2 None None pre) (last1 None pre) (a ++ r) = a' ++ scan l (last2 None None (pre ++ a')) (last1 None (pre ++ a')) r.
Proof.
  induction a as [|c a IH]; intros pre r.
  - exists []. split; [constructor|]. now rewrite app_nil_r.
  - cbn [app scan]. destruct (starts l (c :: a ++ r) && _) eqn:E.
    + destruct (IH (pre ++ [tk ":"; tk ":"; c]) r) as (a' & W & A). exists (tk ":" :: tk ":" :: c :: a'). split; [repeat constructor; exact W|].
      cbn [app]. do 3 f_equal. rewrite <- app_assoc in A. cbn [app] in A. rewrite <- A.
      change [tk ":"; tk ":"; c] with ([tk ":"; tk ":"] ++ [c]). rewrite app_assoc.
      destruct (last_snoc (pre ++ [tk ":"; tk ":"]) c) as [L1 L2]. rewrite L1, L2. f_equal. unfold last1. now rewrite rev_app_distr.
    + destruct (IH (pre ++ [c]) r) as (a' & W & A). exists (c :: a'). split; [constructor; exact W|].
      cbn [app]. f_equal. rewrite <- app_assoc in A. cbn [app] in A. rewrite <- A. destruct (last_snoc pre c) as [-> ->]. reflexivity.
Qed.

Lemma with_colons_ends x l : with_colons (x ++ colon2) l -> ends_in_colons l.
Proof.
  intros H. apply with_colons_split in H as (x' & y & -> & _ & H).
  assert (A : forall l l', with_colons l l' -> Forall (fun a => a = tk ":") l -> Forall (fun a => a = tk ":") l' /\ List.length l <= List.length l').
  { clear. induction 1 as [|a l l' H IH|l l' H IH]; intros F; [split; [constructor|lia]| |].
    - inversion F; subst. destruct (IH H3). split; [constructor; auto|cbn; lia].
    - destruct (IH F). split; [repeat constructor; auto|cbn; lia]. }
  destruct (A _ _ H) as [F L]; [repeat constructor|]. cbn in L.
  destruct (@exists_last _ y) as [y1 [b ->]]; [intros ->; cbn in L; lia|].
  destruct (@exists_last _ y1) as [y2 [c ->]]; [intros ->; cbn in L; lia|].
  apply Forall_app in F as [F1 F2]. apply Forall_app in F1 as [_ F1]. inversion F1; inversion F2; subst.
  exists (x' ++ y2). unfold colon2. now rewrite <- !app_assoc.
Qed.

Lemma hd_scan_after l p q r : is_colon p && is_colon q = true -> hd_error (scan l p q r) = hd_error r.
Proof. intros E. destruct r as [|a r]; [reflexivity|]. cbn [scan]. rewrite E, andb_false_r. reflexivity. Qed.

(** A point already preceded stays so. *)
Lemma scan_preceded l a r ts : preceded a r ts -> preceded a r (scan l None None ts).
Proof.
  intros (a' & r' & -> & A & R & [x ->] & H). destruct (scan_app l (x ++ colon2) [] r') as (a'' & W & E). cbn [app] in E.
  change (last2 None None []) with (@None tok) in E. change (last1 None []) with (@None tok) in E.
  pose proof (with_colons_ends _ _ W) as C. exists a'', (scan l (last2 None None a'') (last1 None a'') r'). split; [exact E|].
  split; [eapply with_colons_trans; eauto|]. split; [eapply with_colons_trans; [apply scan_with_colons|exact R]|]. split; [exact C|].
  apply ends_spec in C. rewrite hd_scan_after by exact C. exact H.
Qed.

(** Every occurrence of the list is preceded after its pass. *)
Lemma scan_complete l a b : l <> [] -> preceded a (l ++ b) (scan l None None (a ++ l ++ b)).
Proof.
  intros N. destruct (scan_app l a [] (l ++ b)) as (a' & W & E). cbn [app] in E.
  change (last2 None None []) with (@None tok) in E. change (last1 None []) with (@None tok) in E. rewrite E. clear E.
  destruct (is_colon (last2 None None a') && is_colon (last1 None a')) eqn:C.
  - exists a', (scan l (last2 None None a') (last1 None a') (l ++ b)). split; [reflexivity|]. split; [exact W|].
    split; [apply scan_with_colons|]. split; [now apply ends_spec|now apply hd_scan_after].
  - destruct (l ++ b) as [|c r] eqn:E; [destruct l; [contradiction|discriminate]|]. cbn [scan].
    assert (S0 : starts l (c :: r) = true) by (apply starts_spec; eauto). rewrite S0, C. cbn [andb negb].
    exists (a' ++ colon2), (c :: scan l (Some (tk ":")) (Some c) r). split; [now rewrite <- app_assoc|].
    split; [|split; [constructor; apply scan_with_colons|split; [now exists a'|reflexivity]]].
    rewrite <- (app_nil_r a). apply with_colons_app; [exact W|]. repeat constructor.
Qed.

Lemma scan_all_preceded ls a r : forall ts, preceded a r ts -> preceded a r (scan_all ls ts).
Proof. induction ls as [|l ls IH]; intros ts H; [exact H|]. cbn [scan_all fold_left]. apply IH. now apply scan_preceded. Qed.

(** Nothing happens if every occurrence is preceded already. *)
Lemma scan_done l : forall r pre,
  (forall a b, pre ++ r = a ++ l ++ b -> ends_in_colons a) -> scan l (last2 None None pre) (last1 None pre) r = r.
Proof.
  induction r as [|a r IH]; intros pre H; [reflexivity|]. cbn [scan]. destruct (starts l (a :: r)) eqn:E; cbn [andb].
  - apply starts_spec in E as [b E]. assert (C : ends_in_colons pre) by (apply (H pre b); now rewrite E). apply ends_spec in C. rewrite C.
    cbn [negb]. f_equal. destruct (last_snoc pre a) as [L1 L2]. rewrite <- (IH (pre ++ [a])) at 2; [now rewrite L1, L2|]. intros x y. rewrite <- app_assoc. apply H.
  - f_equal. destruct (last_snoc pre a) as [L1 L2]. rewrite <- (IH (pre ++ [a])) at 2; [now rewrite L1, L2|]. intros x y. rewrite <- app_assoc. apply H.
Qed.
