(** C87: auto-generated values of arbitrary types. *)
From Coq Require Import String List Ascii Bool Arith NArith ZArith Lia.
From Verif Require Import Base Auto AutoTy PropsAuto.
Import ListNotations.
Local Open Scope nat_scope.

(** The table in README.md:467-476: the values of a type, row by row.  An operation that
    panics has no value. *)
Inductive documented {V} (t : impls V) : V -> Prop :=
| row_min mn mx v : i_bounded t = Some (mn, mx) -> mn = Ret v -> documented t v
| row_max mn mx v : i_bounded t = Some (mn, mx) -> mx = Ret v -> documented t v
| row_add_one mn mx add one a b v :
    i_bounded t = Some (mn, mx) -> i_add t = Some add -> i_one t = Some one ->
    mn = Ret a -> one = Ret b -> add a b = Ret v -> documented t v
| row_low v : low_of t v -> documented t v
| row_high add one l b v :
    i_add t = Some add -> i_one t = Some one -> low_of t l -> one = Ret b -> add l b = Ret v -> documented t v
| row_sub_one mn mx sub one a b v :
    i_bounded t = Some (mn, mx) -> i_sub t = Some sub -> i_one t = Some one ->
    mx = Ret a -> one = Ret b -> sub a b = Ret v -> documented t v
| row_default d v : i_default t = Some d -> d = Ret v -> documented t v
with low_of {V} (t : impls V) : V -> Prop :=
| row_middle mn mx add div one a b o tw x y v :
    i_bounded t = Some (mn, mx) -> i_add t = Some add -> i_div t = Some div -> i_one t = Some one ->
    mn = Ret a -> mx = Ret b -> one = Ret o -> add o o = Ret tw ->
    div a tw = Ret x -> div b tw = Ret y -> add x y = Ret v -> low_of t v.

Lemma bind_ret A B (x : outcome A) (f : A -> outcome B) b : bind x f = Ret b -> exists a, x = Ret a /\ f a = Ret b.
Proof. destruct x; cbn; try discriminate. eauto. Qed.
Lemma ret_inj A (a b : A) : Ret a = Ret b -> a = b.
Proof. now intros [= ->]. Qed.
Lemma auto_impl_in {V} (o : option (list (outcome V))) l v :
  auto_impl o = Ret l -> (In v l <-> exists xs, o = Some xs /\ In (Ret v) xs).
Proof.
  destruct o as [xs|]; cbn [auto_impl]; intros E.
  - revert l E. induction xs as [|x xs IH]; intros l E; cbn [mapM] in E.
    + injection E as <-. split; [intros []|]. intros (ys & Y & I). injection Y as <-. destruct I.
    + apply bind_ret in E as (a & A & E). apply bind_ret in E as (r & R & E). injection E as <-. subst x. specialize (IH _ R). split.
      * intros [<-|I]; [eexists; split; [reflexivity|now left]|]. apply IH in I as (ys & Y & I). injection Y as <-. eexists. split; [reflexivity|now right].
      * intros (ys & Y & I). injection Y as <-. destruct I as [I|I]; [injection I as ->; now left|]. right. apply IH. eauto.
  - injection E as <-. split; [intros []|intros (ys & Y & _); discriminate].
Qed.

Lemma op2_ret {V} (f : V -> V -> outcome V) a b v : op2 f a b = Ret v <-> exists x y, a = Ret x /\ b = Ret y /\ f x y = Ret v.
Proof.
  unfold op2. split.
  - intros E. apply bind_ret in E as (x & A & E). apply bind_ret in E as (y & B & E). eauto.
  - intros (x & y & -> & -> & E). exact E.
Qed.

Lemma middle_low {V} (t : impls V) lo hi v : i_middle t = Some (lo, hi) -> (lo = Ret v <-> low_of t v).
Proof.
  unfold i_middle, i_two. destruct (i_add t) as [add|] eqn:A; [|discriminate]. destruct (i_div t) as [div|] eqn:D; [|discriminate].
  destruct (i_bounded t) as [[mn mx]|] eqn:B; [|discriminate]. destruct (i_one t) as [one|] eqn:O; [|discriminate].
  intros E. injection E as <- _. rewrite op2_ret. split.
  - intros (x & y & E1 & E2 & E3). apply op2_ret in E1 as (a & tw & M & T & E1). apply op2_ret in E2 as (b & tw' & M' & T' & E2).
    rewrite T in T'. injection T' as <-. apply op2_ret in T as (o & o' & O1 & O2 & T). rewrite O1 in O2. injection O2 as <-.
    eapply row_middle; eauto.
  - intros L. inversion L as [mn' mx' add' div' one' a b o tw x y v' B' A' D' O' M M' Oe T X Y S]; subst v'.
    rewrite B in B'. rewrite A in A'. rewrite D in D'. rewrite O in O'. injection B' as <- <-. injection A' as <-. injection D' as <-. injection O' as <-.
    assert (T2 : op2 add one one = Ret tw) by (apply op2_ret; eauto).
    exists x, y. split; [apply op2_ret; eauto|]. split; [apply op2_ret; eauto|exact S].
Qed.

Lemma low_of_middle {V} (t : impls V) v : low_of t v -> exists lo hi, i_middle t = Some (lo, hi).
Proof.
  intros L. inversion L as [mn mx add div one a b o tw x y v' B A D O]; subst v'. unfold i_middle, i_two. rewrite A, D, B, O. eauto.
Qed.

(** The values generated for a type are exactly those of the table, whatever traits the type
    implements and whatever its operations do. *)
Theorem C87_documented_values :
  forall (V : Type) (t : impls V) (vs : list V),
    auto t = Ret vs -> forall v, In v vs <-> documented t v.
Proof.
  intros V t vs E v. unfold auto in E.
  apply bind_ret in E as (l1 & E1 & E). apply bind_ret in E as (l2 & E2 & E). apply bind_ret in E as (l3 & E3 & E).
  apply bind_ret in E as (l4 & E4 & E). apply bind_ret in E as (l5 & E5 & E). apply ret_inj in E. subst vs.
  pose proof (auto_impl_in _ _ v E1) as I1. pose proof (auto_impl_in _ _ v E2) as I2. pose proof (auto_impl_in _ _ v E3) as I3.
  pose proof (auto_impl_in _ _ v E4) as I4. pose proof (auto_impl_in _ _ v E5) as I5.
  cbn [List.concat]. rewrite !in_app_iff, I1, I2, I3, I4, I5. clear. split.
  - intros [(xs & O & I)|[(xs & O & I)|[(xs & O & I)|[(xs & O & I)|[(xs & O & I)|[]]]]]].
    + destruct (i_bounded t) as [[mn mx]|] eqn:B; [|discriminate]. injection O as <-. destruct I as [I|[I|[]]]; [eapply row_min|eapply row_max]; eauto.
    + destruct (i_default t) as [d|] eqn:D; [|discriminate]. injection O as <-. destruct I as [I|[]]. eapply row_default; eauto.
    + unfold max_sub_one in O. destruct (i_sub t) as [sub|] eqn:S; [|discriminate]. destruct (i_bounded t) as [[mn mx]|] eqn:B; [|discriminate].
      destruct (i_one t) as [one|] eqn:N; [|discriminate]. injection O as <-. destruct I as [I|[]]. apply op2_ret in I as (a & b & ? & ? & ?). eapply row_sub_one; eauto.
    + destruct (i_middle t) as [[lo hi]|] eqn:M; [|discriminate]. injection O as <-. destruct I as [I|[I|[]]].
      * apply row_low. now apply (middle_low _ _ _ _ M).
      * pose proof (middle_low t lo hi) as L. unfold i_middle in M. destruct (i_add t) as [add|] eqn:A; [|discriminate]. destruct (i_div t) as [div|] eqn:D; [|discriminate].
        destruct (i_bounded t) as [[mn mx]|] eqn:B; [|discriminate]. destruct (i_one t) as [one|] eqn:N; [|discriminate]. destruct (i_two t) as [two|] eqn:T; [|discriminate].
        assert (H : hi = op2 add lo one) by (now inversion M). rewrite H in I. apply op2_ret in I as (l & b & E1 & E2 & E3).
        eapply row_high; eauto. eapply (L l); [|exact E1]. unfold i_middle. now rewrite A, D, B, N, T.
    + unfold min_add_one in O. destruct (i_add t) as [add|] eqn:S; [|discriminate]. destruct (i_bounded t) as [[mn mx]|] eqn:B; [|discriminate].
      destruct (i_one t) as [one|] eqn:N; [|discriminate]. injection O as <-. destruct I as [I|[]]. apply op2_ret in I as (a & b & ? & ? & ?). eapply row_add_one; eauto.
  - intros D. destruct D as [mn mx v B M|mn mx v B M|mn mx add one a b v B A O M N S|v L|add one l b v A O L N S|mn mx sub one a b v B A O M N S|d v D M].
    + left. rewrite B. eexists. split; [reflexivity|]. left. now symmetry.
    + left. rewrite B. eexists. split; [reflexivity|]. right. left. now symmetry.
    + right. right. right. right. left. unfold min_add_one. rewrite A, B, O. eexists. split; [reflexivity|]. left. apply op2_ret. eauto.
    + right. right. right. left. destruct (low_of_middle _ _ L) as (lo & hi & M). rewrite M. eexists. split; [reflexivity|]. left. now apply (middle_low _ _ _ _ M).
    + right. right. right. left. destruct (low_of_middle _ _ L) as (lo & hi & M). rewrite M. eexists. split; [reflexivity|]. right. left.
      pose proof (proj2 (middle_low _ _ _ _ M) L) as Lo.
      unfold i_middle in M. rewrite A, O in M. destruct (i_div t); [|discriminate]. destruct (i_bounded t) as [[mn mx]|]; [|discriminate]. destruct (i_two t); [|discriminate].
      assert (H : hi = op2 add lo one) by (now inversion M). rewrite H. apply op2_ret. eauto.
    + right. right. left. unfold max_sub_one. rewrite A, B, O. eexists. split; [reflexivity|]. left. apply op2_ret. eauto.
    + right. left. rewrite D. eexists. split; [reflexivity|]. left. now symmetry.
Qed.
Print Assumptions C87_documented_values.

(** If no operation panics, there is no panic. *)
Theorem C87_total :
  forall (V : Type) (t : impls V),
    (forall mn mx, i_bounded t = Some (mn, mx) -> (exists a, mn = Ret a) /\ exists b, mx = Ret b) ->
    (forall d, i_default t = Some d -> exists a, d = Ret a) -> (forall d, i_one t = Some d -> exists a, d = Ret a) ->
    (forall f, i_add t = Some f \/ i_sub t = Some f \/ i_div t = Some f -> forall a b, exists c, f a b = Ret c) ->
    exists vs, auto t = Ret vs.
Proof.
  intros V t B D O F.
  assert (P : forall f a b, (i_add t = Some f \/ i_sub t = Some f \/ i_div t = Some f) -> (exists x, a = Ret x) -> (exists y, b = Ret y) -> exists c, op2 f a b = Ret c).
  { intros f a b H (x & ->) (y & ->). cbn [op2 bind]. now apply F. }
  assert (I : forall o : option (list (outcome V)), (forall l, o = Some l -> Forall (fun x => exists v, x = Ret v) l) -> exists l, auto_impl o = Ret l).
  { intros [l|] H; [|eexists; reflexivity]. specialize (H l eq_refl). cbn [auto_impl]. induction H as [|x l (v & ->) H (r & IH)]; [eexists; reflexivity|].
    cbn [mapM bind]. rewrite IH. eexists. reflexivity. }
  unfold auto.
  destruct (I (option_map (fun '(mn, mx) => [mn; mx]) (i_bounded t))) as (l1 & ->).
  { intros l E. destruct (i_bounded t) as [[mn mx]|]; [|discriminate]. injection E as <-. destruct (B mn mx eq_refl). auto. }
  destruct (I (option_map (fun d => [d]) (i_default t))) as (l2 & ->).
  { intros l E. destruct (i_default t) as [d|]; [|discriminate]. injection E as <-. auto. }
  destruct (I (option_map (fun d => [d]) (max_sub_one t))) as (l3 & ->).
  { intros l E. unfold max_sub_one in E. destruct (i_sub t) as [f|] eqn:Ef; [|discriminate]. destruct (i_bounded t) as [[mn mx]|]; [|discriminate].
    destruct (i_one t) as [one|]; [|discriminate]. injection E as <-. destruct (B mn mx eq_refl). constructor; [|constructor]. apply P; auto. }
  destruct (I (option_map (fun '(lo, hi) => [lo; hi]) (i_middle t))) as (l4 & ->).
  { intros l E. unfold i_middle, i_two in E. destruct (i_add t) as [f|] eqn:Ef; [|discriminate]. destruct (i_div t) as [g|] eqn:Eg; [|discriminate].
    destruct (i_bounded t) as [[mn mx]|]; [|discriminate]. destruct (i_one t) as [one|]; [|discriminate]. injection E as <-. destruct (B mn mx eq_refl).
    assert (T : exists c, op2 f one one = Ret c) by (apply P; auto).
    assert (L : exists c, op2 f (op2 g mn (op2 f one one)) (op2 g mx (op2 f one one)) = Ret c) by (apply P; auto).
    constructor; [exact L|]. constructor; [|constructor]. apply P; auto. }
  destruct (I (option_map (fun d => [d]) (min_add_one t))) as (l5 & ->).
  { intros l E. unfold min_add_one in E. destruct (i_add t) as [f|] eqn:Ef; [|discriminate]. destruct (i_bounded t) as [[mn mx]|]; [|discriminate].
    destruct (i_one t) as [one|]; [|discriminate]. injection E as <-. destruct (B mn mx eq_refl). constructor; [|constructor]. apply P; auto. }
  eexists. reflexivity.
Qed.
Print Assumptions C87_total.

(** Supported: there is at least one value. *)
Definition supported {V} (t : impls V) : Prop := i_bounded t <> None \/ i_default t <> None.

Lemma auto_nonempty {V} (t : impls V) vs : auto t = Ret vs -> (vs <> [] <-> supported t).
Proof.
  intros E. unfold supported. split.
  - intros N. destruct vs as [|v vs]; [congruence|]. assert (D : documented t v) by (apply (C87_documented_values _ _ _ E); now left).
    destruct D as [? ? ? B| ? ? ? B|? ? ? ? ? ? ? B|? L|? ? ? ? ? ? ? L|? ? ? ? ? ? ? B|? ? D]; try (left; rewrite B; discriminate); try (right; rewrite D; discriminate);
      destruct L as [? ? ? ? ? ? ? ? ? ? ? ? B]; left; rewrite B; discriminate.
  - intros [H|H] ->.
    + destruct (i_bounded t) as [[mn mx]|] eqn:B; [|congruence]. unfold auto in E. rewrite B in E. cbn [option_map auto_impl mapM] in E.
      apply bind_ret in E as (l1 & E1 & E). apply bind_ret in E as (l2 & E2 & E). apply bind_ret in E as (l3 & E3 & E).
      apply bind_ret in E as (l4 & E4 & E). apply bind_ret in E as (l5 & E5 & E). apply ret_inj in E. cbn [List.concat] in E.
      apply app_eq_nil in E as [-> _]. apply bind_ret in E1 as (a & _ & E1). apply bind_ret in E1 as (r & _ & E1). discriminate.
    + destruct (i_default t) as [d|] eqn:D; [|congruence]. unfold auto in E. rewrite D in E.
      apply bind_ret in E as (l1 & E1 & E). apply bind_ret in E as (l2 & E2 & E). apply bind_ret in E as (l3 & E3 & E).
      apply bind_ret in E as (l4 & E4 & E). apply bind_ret in E as (l5 & E5 & E). apply ret_inj in E. cbn [List.concat] in E.
      apply app_eq_nil in E as [_ E]. apply app_eq_nil in E as [-> _]. cbn [option_map auto_impl mapM] in E2.
      apply bind_ret in E2 as (a & _ & E2). discriminate.
Qed.

(** Entries are generated for a target exactly if each of its argument types implements
    [Bounded] or [Default]; and then every value of the table occurs in some entry, and
    nothing else. *)
Theorem C87_entries :
  forall (V : Type) (ts : list (impls V)) (autos : list (list V)),
    autos_of ts = Ret autos ->
    exists es, args_from_autos autos = Ret es /\
      (es <> [] <-> Forall supported ts) /\
      (forall e, In e es -> Forall2 documented ts e) /\
      (Forall supported ts -> forall k t v, nth_error ts k = Some t -> documented t v -> exists e, In e es /\ nth_error e k = Some v).
Proof.
  intros V ts autos A.
  assert (F : Forall2 (fun t l => auto t = Ret l) ts autos).
  { revert autos A. unfold autos_of. induction ts as [|t ts IH]; intros autos A; cbn [mapM] in A.
    - injection A as <-. constructor.
    - apply bind_ret in A as (l & L & A). apply bind_ret in A as (r & R & A). injection A as <-. constructor; [exact L|now apply IH]. }
  assert (N : ~ In [] autos <-> Forall supported ts).
  { clear A. induction F as [|t l ts autos L F IH]; [split; [constructor|intros _ []]|]. split.
    - intros H. constructor; [apply (auto_nonempty _ _ L); intros ->; apply H; now left|]. apply IH. intros I. apply H. now right.
    - intros H. inversion H as [|t' ts' S R]; subst. intros [->|I]; [now apply (auto_nonempty _ _ L) in S|]. now apply IH in R. }
  destruct (C37_count_exact V autos) as (es & E & C). exists es. split; [exact E|]. split; [|split].
  - rewrite <- N. destruct C as [(-> & C)|[(I & C)|(Ne & I & (a & Ia & Ca) & _)]].
    + split; [intros _ []|]. intros _ ->. discriminate.
    + split; [intros H; destruct es; [congruence|discriminate]|]. intros H. contradiction.
    + split; [auto|]. intros _ ->. destruct a; [contradiction|discriminate].
  - intros e I. pose proof (C36_only_generated_values _ _ _ _ E I) as G. clear - F G. revert e G.
    induction F as [|t l ts autos L F IH]; intros e G; inversion G as [|l' v autos' e' Iv G']; subst; constructor.
    + now apply (C87_documented_values _ _ _ L).
    + now apply IH.
  - intros S k t v T D. apply N in S. destruct (C36_every_value_used V autos S) as (es' & E' & U). rewrite E in E'. injection E' as <-.
    assert (exists l, nth_error autos k = Some l /\ auto t = Ret l) as (l & L1 & L2).
    { clear - F T. revert k T. induction F as [|t' l' ts autos L F IH]; intros [|k] T; cbn in *; try discriminate; [injection T as ->; eauto|now apply IH]. }
    apply (U k l); [exact L1|]. now apply (C87_documented_values _ _ _ L2).
Qed.
Print Assumptions C87_entries.

(** For integers this is what C38 computes. *)
Theorem C87_integers :
  forall t : ity, auto (int_impls t) = auto_int t.
Proof.
  intros t. unfold auto, auto_int, int_impls, max_sub_one, min_add_one, i_middle, i_two, max_value_sub_one, high, low, min_value_add_one, two.
  cbn [i_bounded i_default i_one i_add i_sub i_div]. unfold op2. cbn [option_map auto_impl mapM bind].
  destruct (it_sub t (it_max t) 1) as [a| |]; cbn [bind]; try reflexivity.
  destruct (it_add t 1 1) as [tw| |]; cbn [bind]; try reflexivity.
  destruct (it_div t (it_min t) tw) as [x| |]; cbn [bind]; try reflexivity.
  destruct (it_div t (it_max t) tw) as [y| |]; cbn [bind]; try reflexivity.
  destruct (it_add t x y) as [l| |]; cbn [bind]; try reflexivity.
  destruct (it_add t l 1) as [h| |]; cbn [bind]; try reflexivity.
  destruct (it_add t (it_min t) 1) as [p| |]; cbn [bind]; reflexivity.
Qed.
Print Assumptions C87_integers.

(** A type with a default only, one with bounds only, one with nothing. *)
Definition ex_default : impls Z := {| i_bounded := None; i_default := Some (Ret 7%Z); i_one := None; i_add := None; i_sub := None; i_div := None |}.
Definition ex_bounded : impls Z := {| i_bounded := Some (Ret 1%Z, Ret 9%Z); i_default := None; i_one := Some (Ret 1%Z); i_add := None; i_sub := Some (fun a b => Ret (a - b)%Z); i_div := None |}.
Definition ex_nothing : impls Z := {| i_bounded := None; i_default := None; i_one := Some (Ret 1%Z); i_add := Some (fun a b => Ret (a + b)%Z); i_sub := None; i_div := None |}.
Example C87_example :
  auto ex_default = Ret [7]%Z /\ auto ex_bounded = Ret [1; 9; 8]%Z /\ auto ex_nothing = Ret [] /\
  bind (autos_of [ex_bounded; ex_default]) args_from_autos = Ret [[1; 7]; [9; 7]; [8; 7]]%Z /\
  bind (autos_of [ex_bounded; ex_nothing]) args_from_autos = Ret [] /\
  supported ex_bounded /\ ~ supported ex_nothing.
Proof.
  repeat (split; [reflexivity|]). split; [left; discriminate|]. intros [H|H]; now apply H.
Qed.
