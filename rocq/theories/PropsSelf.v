(** C26 and C27: expansion of [Self], generic arguments. *)
From Coq Require Import List Ascii String Bool Arith Lia.
From Verif Require Import Base Syntax SelfTy.
Import ListNotations.
Local Open Scope nat_scope.

(** ** C26 *)

(** In an impl of a trait: every [Self] is replaced, nothing else is changed. *)
Theorem C26_replaced :
  forall (trait_path : rpath) (self_ty t t' : rty),
    expand_self (Some trait_path) self_ty t = Ret t' <-> self_replaced trait_path self_ty t t'.
Proof.
  intros tp s t t'. unfold expand_self. split.
  - destruct (rejects true t) eqn:R; [discriminate|]. intros E. injection E as <-. now apply expand_replaced.
  - intros H. apply replaced_accepted in H as [-> ->]. reflexivity.
Qed.
Print Assumptions C26_replaced.

(** No [Self] is left, if there is none in the self type, in the trait path and in the
    arguments of associated types. *)
Theorem C26_eliminated :
  forall (trait_path : option rpath) (self_ty t t' : rty),
    ~ mentions_self self_ty ->
    (forall p c, trait_path = Some p -> In c (schildren (snd p)) -> ~ mentions_self c) ->
    (forall lead a rest c, part t (RPath None lead ((SELF, a) :: rest)) -> In c (schildren rest) -> ~ mentions_self c) ->
    expand_self trait_path self_ty t = Ret t' -> ~ mentions_self t'.
Proof.
  intros tp s t t' NS NT G E. unfold expand_self in E. destruct (rejects _ t); [discriminate|]. injection E as <-.
  apply expand_clean; [exact NS| |exact G]. destruct tp as [p|]; [|intros c []]. intros c C. now apply (NT p).
Qed.
Print Assumptions C26_eliminated.

(** A type without [Self] is unchanged. *)
Theorem C26_unchanged :
  forall (trait_path : option rpath) (self_ty t : rty), ~ mentions_self t -> expand_self trait_path self_ty t = Ret t.
Proof.
  intros tp s t N. unfold expand_self. destruct (expand_unchanged (match tp with Some p => p | None => (false, []) end) s t N) as (A & B & C).
  destruct tp; [rewrite A|rewrite B]; now rewrite C.
Qed.
Print Assumptions C26_unchanged.

(** Outside an impl of a trait exactly the types with an associated type of [Self] are rejected. *)
Theorem C26_inherent :
  forall (self_ty t : rty),
    (expand_self None self_ty t = Panic <->
     exists lead a rest, part t (RPath None lead ((SELF, a) :: rest)) /\ (a, rest) <> (ANone, [])) /\
    (forall t', expand_self None self_ty t = Ret t' -> self_replaced (false, []) self_ty t t').
Proof.
  intros s t. unfold expand_self. split.
  - rewrite <- rejected_iff. destruct (rejects false t); split; congruence.
  - intros t' E. destruct (rejects false t) eqn:R; [discriminate|]. injection E as <-. apply expand_replaced.
    revert R. induction t as [t IH] using rty_ind'. rewrite !rejects_eq. destruct (is_self t); [reflexivity|].
    destruct (self_rest t); [discriminate|]. rewrite !tany_children, !existsb_false. rewrite !Forall_forall in *. auto.
Qed.
Print Assumptions C26_inherent.

(** [Self] inside the arguments of an associated type stays. *)
Theorem C26_associated_arguments_refuted :
  exists (trait_path : rpath) (self_ty t t' : rty),
    ~ mentions_self self_ty /\ schildren (snd trait_path) = [] /\
    expand_self (Some trait_path) self_ty t = Ret t' /\ mentions_self t'.
Proof.
  exists (false, [(lit "Tr", ANone)]), (rname "Foo"), (RPath None false [(SELF, ANone); (lit "Gat", AAngle false [GType (rname "Self")])]).
  eexists. split; [|split; [reflexivity|split; [reflexivity|]]].
  - intros (c & P & l & a & r & E). inversion P; subst; [discriminate|]. match goal with H : In _ _ |- _ => destruct H end.
  - exists (rname "Self"). split; [|now exists false, ANone, []]. econstructor; [|constructor]. cbn. auto.
Qed.
Print Assumptions C26_associated_arguments_refuted.

(** So does [Self] in the length of an array: the tokens still contain it. *)
Theorem C26_array_length_refuted :
  exists (trait_path : rpath) (self_ty t t' : rty),
    expand_self (Some trait_path) self_ty t = Ret t' /\
    toks t' = [Grp "[" [tk "u8"; tk ";"; tk "Self"; tk ":"; tk ":"; tk "N"]].
Proof.
  exists (false, [(lit "Tr", ANone)]), (rname "Foo"), (RArray (rname "u8") [tk "Self"; tk ":"; tk ":"; tk "N"]).
  eexists. split; reflexivity.
Qed.
Print Assumptions C26_array_length_refuted.

Example C26_example :
  (* fn f(&self, x: Option<(Self, &[Self::Item])>) in impl Iterator for Foo<T> *)
  exists t', expand_self (Some (false, [(lit "Iterator", ANone)])) (rapp "Foo" [rname "T"])
    (rapp "Option" [RTuple [rname "Self"; RRef None false (RSlice (RPath None false [(SELF, ANone); (lit "Item", ANone)]))]]) = Ret t' /\
  toks t' = [tk "Option"; tk "<"; Grp "(" [tk "Foo"; tk "<"; tk "T"; tk ">"; tk ",";
      tk "&"; Grp "[" [tk "<"; tk "Foo"; tk "<"; tk "T"; tk ">"; tk "as"; tk "Iterator"; tk ">"; tk ":"; tk ":"; tk "Item"]]; tk ">"].
Proof. eexists. split; reflexivity. Qed.

(** ** C27 *)

(** The type parameters among [ps], by position. *)
Definition type_names (ps : list gparam) : list str :=
  List.concat (map (fun p => match p with PType s => [s] | _ => [] end) ps).

Lemma get_collected (l : list (gparam * garg rty)) :
  NoDup (type_names (map fst l)) ->
  let m := List.concat (map (fun '(k, v) => match k with PType s => [(s, v)] | _ => [] end) l) in
  (forall s a, In (PType s, a) l -> get m s = Some a) /\ (forall s, ~ In (PType s) (map fst l) -> get m s = None).
Proof.
  induction l as [|[k v] l IH]; intros N m; [split; [intros s a []|reflexivity]|].
  assert (NI : forall s, ~ In s (type_names (map fst l)) -> ~ In (PType s) (map fst l)).
  { intros s H I. apply H. unfold type_names. apply in_concat. exists [s]. split; [|now left]. now apply in_map_iff; exists (PType s). }
  cbn [map fst] in N. unfold type_names in N. cbn [map List.concat] in N. fold (type_names (map fst l)) in N.
  destruct k as [s0|s0|s0]; cbn [app] in N.
  - destruct (IH N) as [A B]. split.
    + intros s a [E|I]; [discriminate|now apply A].
    + intros s H. apply B. intros I. apply H. now right.
  - inversion N as [|? ? N1 N2]; subst. destruct (IH N2) as [A B].
    change m with ((s0, v) :: List.concat (map (fun '(k, v) => match k with PType s => [(s, v)] | _ => [] end) l)). cbn [get]. split.
    + intros s a [E|I].
      * injection E as -> ->. rewrite (B s) by now apply NI. now rewrite str_eqb_same.
      * now rewrite (A s a I).
    + intros s H. rewrite B by (intros I; apply H; now right). destruct (str_eqb s0 s) eqn:E; [|reflexivity].
      apply str_eqb_eq in E as ->. exfalso. apply H. now left.
  - destruct (IH N) as [A B]. split.
    + intros s a [E|I]; [discriminate|now apply A].
    + intros s H. apply B. intros I. apply H. now right.
Qed.

Lemma map_fst_combine {A B} (l : list A) (l' : list B) : List.length l = List.length l' -> map fst (combine l l') = l.
Proof. revert l'. induction l as [|a l IH]; intros [|b l'] E; cbn in *; try discriminate; [reflexivity|]. now rewrite IH by lia. Qed.
Lemma combine_nth_in {A B} (l : list A) (l' : list B) i a b : nth_error l i = Some a -> nth_error l' i = Some b -> In (a, b) (combine l l').
Proof.
  revert l' i. induction l as [|x l IH]; intros [|y l'] [|i]; cbn; try discriminate; intros E1 E2.
  - left. congruence.
  - right. eauto.
Qed.

(** The arguments belong to the last parameters, in order; the other parameters get none. *)
Theorem C27_assigned_from_the_right :
  forall (before last : list gparam) (args : list (garg rty)),
    List.length last = List.length args -> NoDup (type_names last) ->
    exists m, generic_params_map (before ++ last) args = Ret m /\
      (forall i s a, nth_error last i = Some (PType s) -> nth_error args i = Some a -> get m s = Some a) /\
      (forall s, ~ In (PType s) last -> get m s = None).
Proof.
  intros pre suf args L N. unfold generic_params_map. rewrite app_length.
  destruct (List.length pre + List.length suf <? List.length args) eqn:E; [apply Nat.ltb_lt in E; lia|].
  eexists. split; [reflexivity|]. replace (List.length pre + List.length suf - List.length args) with (List.length pre) by lia.
  rewrite skipn_app, skipn_all, Nat.sub_diag. cbn [app skipn].
  destruct (get_collected (combine suf args)) as [A B]; [now rewrite map_fst_combine|]. split.
  - intros i s a E1 E2. apply A. eapply combine_nth_in; eauto.
  - intros s H. apply B. now rewrite map_fst_combine.
Qed.
Print Assumptions C27_assigned_from_the_right.

(** Exactly too many arguments are rejected. *)
Theorem C27_too_many :
  forall (params : list gparam) (args : list (garg rty)),
    generic_params_map params args = Panic <-> List.length params < List.length args.
Proof.
  intros params args. unfold generic_params_map. destruct (List.length params <? List.length args) eqn:E.
  - apply Nat.ltb_lt in E. tauto.
  - apply Nat.ltb_ge in E. split; [discriminate|lia].
Qed.
Print Assumptions C27_too_many.

(** Substitution replaces exactly the names in the map; names with a lifetime or constant
    as argument are rejected. *)
Theorem C27_substitution :
  forall (m : list (str * garg rty)) (t t' : rty),
    map_type_generic_params m t = Ret t' <-> params_replaced (get m) t t'.
Proof.
  intros m t t'. unfold map_type_generic_params. split.
  - destruct (subst_rejects m t) eqn:R; [discriminate|]. intros E. injection E as <-. now apply subst_replaced.
  - intros H. apply replaced_subst in H as [-> ->]. reflexivity.
Qed.
Print Assumptions C27_substitution.

(** If a name whose argument is a lifetime or a constant is to be replaced, the macro panics; it
    never reports an error of its own. *)
Theorem C27_substitution_rejected :
  forall (m : list (str * garg rty)) (t : rty),
    map_type_generic_params m t = Panic <-> ~ exists t', params_replaced (get m) t t'.
Proof.
  intros m t. unfold map_type_generic_params. destruct (subst_rejects m t) eqn:R.
  - split; [|reflexivity]. intros _ [t' H]. apply replaced_subst in H as [H _]. congruence.
  - split; [discriminate|]. intros H. exfalso. apply H. eexists. apply subst_replaced. exact R.
Qed.
Print Assumptions C27_substitution_rejected.

(** A parameter with a type argument does not occur afterwards. *)
Theorem C27_parameter_gone :
  forall (m : list (str * garg rty)) (t t' a : rty) (x : str),
    get m x = Some (GType a) -> (forall s b, get m s = Some (GType b) -> ~ mentions x b) ->
    map_type_generic_params m t = Ret t' -> ~ mentions x t'.
Proof.
  intros m t t' a x G C E. unfold map_type_generic_params in E. destruct (subst_rejects m t) eqn:R; [discriminate|]. injection E as <-.
  apply subst_clean; eauto.
Qed.
Print Assumptions C27_parameter_gone.

(** Afterwards there is one lifetime argument for each lifetime parameter; more than that are rejected. *)
Theorem C27_lifetimes_completed :
  forall (params : list gparam) (args : list (garg rty)),
    let lts l := List.length (filter (@is_lifetime rty) l) in
    let want := List.length (filter is_lt_param params) in
    (with_dummy_lifetimes params args = Panic <-> want < lts args) /\
    forall out, with_dummy_lifetimes params args = Ret out ->
      lts out = want /\ exists n, out = args ++ repeat (GLifetime (lit "'static")) n.
Proof.
  intros params args lts want. unfold with_dummy_lifetimes. fold want. fold (lts args). destruct (want <? lts args) eqn:E.
  - apply Nat.ltb_lt in E. split; [tauto|discriminate].
  - apply Nat.ltb_ge in E. split; [split; [discriminate|lia]|]. intros out H. injection H as <-. split; [|eauto].
    unfold lts in *. rewrite filter_app, app_length.
    assert (R : forall n, List.length (filter (@is_lifetime rty) (repeat (GLifetime (lit "'static")) n)) = n).
    { induction n as [|n IH]; [reflexivity|]. cbn [repeat filter is_lifetime List.length]. now rewrite IH. }
    rewrite R. lia.
Qed.
Print Assumptions C27_lifetimes_completed.

(** Rust wants lifetime arguments first. *)
Definition in_order (l : list (garg rty)) : Prop :=
  exists a b, l = a ++ b /\ Forall (fun x => is_lifetime x = true) a /\ Forall (fun x => is_lifetime x = false) b.

(** Given arguments in that order, the completed list is in that order exactly if nothing had to be
    added or there are lifetimes only. *)
Theorem C27_order_exact :
  forall (params : list gparam) (args out : list (garg rty)),
    in_order args -> with_dummy_lifetimes params args = Ret out ->
    (in_order out <-> out = args \/ Forall (fun x => is_lifetime x = true) args).
Proof.
  intros params args out O E. destruct (C27_lifetimes_completed params args) as [_ H]. destruct (H out E) as [_ [n ->]]. clear H E.
  assert (R : forall n, Forall (fun x => is_lifetime x = true) (repeat (@GLifetime rty (lit "'static")) n)).
  { intros k. induction k; constructor; auto. }
  split.
  - intros (a & b & E & A & B). destruct n as [|n]; [left; cbn; apply app_nil_r|]. right.
    destruct b as [|x b].
    + rewrite app_nil_r in E. rewrite <- E in A. now apply Forall_app in A.
    + exfalso. destruct (@exists_last _ (x :: b)) as [b' [y Y]]; [discriminate|]. rewrite Y in *.
      apply Forall_app in B as [_ B]. inversion B as [|? ? L _]; subst.
      assert (E2 : rev (args ++ repeat (@GLifetime rty (lit "'static")) (S n)) = rev (a ++ b' ++ [y])) by now rewrite E.
      cbn [repeat] in E2. rewrite repeat_cons, !app_assoc in E2. rewrite !rev_app_distr in E2. cbn [rev app] in E2. injection E2 as <- _. discriminate.
  - intros [->|F]; [exact O|]. exists (args ++ repeat (GLifetime (lit "'static")) n), []. rewrite app_nil_r. split; [reflexivity|].
    split; [apply Forall_app; auto|constructor].
Qed.
Print Assumptions C27_order_exact.

(** [fn f<'a, T>] with [generic_args = "u8"] gives [<u8, 'static>]. *)
Theorem C27_order_refuted :
  exists (params : list gparam) (args out : list (garg rty)),
    in_order args /\ with_dummy_lifetimes params args = Ret out /\ ~ in_order out.
Proof.
  exists [PLifetime (lit "'a"); PType (lit "T")], [GType (rname "u8")]. eexists.
  assert (O : in_order [GType (rname "u8")]) by (exists [], [GType (rname "u8")]; repeat constructor).
  split; [exact O|]. split; [reflexivity|]. intros H.
  apply (C27_order_exact [PLifetime (lit "'a"); PType (lit "T")] _ _ O) in H; [|reflexivity]. destruct H as [H|H]; [discriminate|].
  inversion H. discriminate.
Qed.
Print Assumptions C27_order_refuted.

(** A constant argument of the impl is not substituted: [impl<const N: usize> Foo<N>] with
    [impl_generic_args = "3"] still calls [Foo<N>]. *)
Theorem C27_constant_refuted :
  exists (params : list gparam) (args : list (garg rty)) (m : list (str * garg rty)) (t : rty),
    params = [PConst (lit "N")] /\ args = [GConst [tk "3"]] /\ generic_params_map params args = Ret m /\
    mentions (lit "N") t /\ map_type_generic_params m t = Ret t.
Proof.
  exists [PConst (lit "N")], [GConst [tk "3"]], [], (rapp "Foo" [rname "N"]). repeat (split; [reflexivity|]). split; [|reflexivity].
  econstructor; [|constructor]. cbn. auto.
Qed.
Print Assumptions C27_constant_refuted.

(** The combined parameters and arguments: those of the impl, then those of the function. *)
Theorem C27_combined :
  forall (impl_params fn_params : list gparam) (impl_args fn_args : option (list (garg rty))),
    combine_generics impl_params fn_params = impl_params ++ fn_params /\
    combine_options impl_args fn_args (@app (garg rty)) =
      match impl_args, fn_args with
      | None, None => None
      | _, _ => Some (match impl_args with Some l => l | None => [] end ++ match fn_args with Some l => l | None => [] end)
      end.
Proof.
  intros ip fp ia fa. split; [reflexivity|]. destruct ia, fa; cbn; rewrite ?app_nil_r; reflexivity.
Qed.
Print Assumptions C27_combined.

Example C27_example :
  (* impl<'a, T, U> Foo<'a, T, Vec<U>> with impl_generic_args = "u8, Bar<T>" *)
  exists m, generic_params_map [PLifetime (lit "'a"); PType (lit "T"); PType (lit "U")] [GType (rname "u8"); GType (rapp "Bar" [rname "X"])] = Ret m /\
  map_type_generic_params m (RPath None false [(lit "Foo", AAngle false [GLifetime (lit "'a"); GType (rname "T"); GType (rapp "Vec" [rname "U"])])])
  = Ret (RPath None false [(lit "Foo", AAngle false [GLifetime (lit "'a"); GType (rname "u8"); GType (rapp "Vec" [rapp "Bar" [rname "X"]])])]) /\
  with_dummy_lifetimes [PLifetime (lit "'a"); PLifetime (lit "'b")] [GLifetime (lit "'static")] = Ret [GLifetime (lit "'static"); GLifetime (lit "'static")].
Proof. eexists. repeat split; reflexivity. Qed.
