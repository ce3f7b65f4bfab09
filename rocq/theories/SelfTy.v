(** Replacing [Self] (macro/src/type_utils.rs:105-172) and generic parameters (10-50, and
    macro/src/lib.rs:810-837). *)
From Coq Require Import List Ascii String Bool Arith Lia.
From Verif Require Import Base Syntax.
Import ListNotations.
Local Open Scope nat_scope.

(** ** Self *)

Definition SELF : str := lit "Self".

(** macro/src/type_utils.rs:149-172 [match_type_path(path, &["Self"]) == Some(PathArguments::None)]. *)
Definition is_self (t : rty) : bool :=
  match t with
  | RPath None _ [(s, ANone)] => str_eqb s SELF
  | _ => false
  end.

(** macro/src/type_utils.rs:129-134: a path beginning with [Self]; its other segments. *)
Definition self_rest (t : rty) : option (list seg) :=
  match t with
  | RPath None _ ((s, _) :: rest) => if str_eqb s SELF then Some rest else None
  | _ => None
  end.

(** macro/src/type_utils.rs:120-145 [ExpandSelfVisitor::visit_type_mut], when nothing is
    rejected.  What [parse_quote!] parses again is taken to be what was printed. *)
Fixpoint expand (trait_path : rpath) (self_ty t : rty) : rty :=
  if is_self t then self_ty
  else match self_rest t with
       | Some rest => RPath (Some (self_ty, List.length (snd trait_path))) (fst trait_path) (snd trait_path ++ rest)
       | None => tmap (expand trait_path self_ty) t
       end.

(** macro/src/type_utils.rs:136-141: does visiting panic?  Without a trait at the
    [expect]; and [parse_quote!] rejects a path ending in [::]. *)
Fixpoint rejects (has_trait : bool) (t : rty) : bool :=
  if is_self t then false
  else match self_rest t with
       | Some rest => negb has_trait || match rest with [] => true | _ => false end
       | None => tany (rejects has_trait) t
       end.

(** macro/src/type_utils.rs:105-113 [expand_self]. *)
Definition expand_self (trait_path : option rpath) (self_ty t : rty) : outcome rty :=
  if rejects (match trait_path with Some _ => true | None => false end) t then Panic
  else Ret (expand (match trait_path with Some p => p | None => (false, []) end) self_ty t).

(** *** Specification *)

(** A path type whose first segment is [Self]. *)
Definition self_headed (t : rty) : Prop := exists lead a rest, t = RPath None lead ((SELF, a) :: rest).

(** [Self] occurs in [t] as a type or at the head of a path type. *)
Definition mentions_self (t : rty) : Prop := exists c, part t c /\ self_headed c.

(** [t'] is [t] with [Self] replaced by the self type and [Self::A] by [<SelfTy as Trait>::A]. *)
Inductive self_replaced (trait_path : rpath) (self_ty : rty) : rty -> rty -> Prop :=
  | sr_self lead : self_replaced trait_path self_ty (RPath None lead [(SELF, ANone)]) self_ty
  | sr_assoc lead a s rest : self_replaced trait_path self_ty (RPath None lead ((SELF, a) :: s :: rest))
      (RPath (Some (self_ty, List.length (snd trait_path))) (fst trait_path) (snd trait_path ++ s :: rest))
  | sr_other t t' : ~ self_headed t -> same_shape t t' ->
      Forall2 (self_replaced trait_path self_ty) (children t) (children t') -> self_replaced trait_path self_ty t t'.

(** *** Proofs *)

Lemma str_eqb_eq a b : str_eqb a b = true <-> a = b.
Proof. unfold str_eqb. destruct (str_dec a b); split; congruence. Qed.
Lemma str_eqb_same a : str_eqb a a = true.
Proof. now apply str_eqb_eq. Qed.

Lemma is_self_spec t : is_self t = true <-> exists lead, t = RPath None lead [(SELF, ANone)].
Proof.
  split.
  - intros E. destruct t as [[?|] lead [|[s [| |]] [|]]| | | | | | | | |]; cbn [is_self] in E; try discriminate E. apply str_eqb_eq in E as ->. eauto.
  - intros [lead ->]. reflexivity.
Qed.
Lemma self_rest_some t rest : self_rest t = Some rest <-> exists lead a, t = RPath None lead ((SELF, a) :: rest).
Proof.
  split.
  - intros H. destruct t as [[?|] lead [|[s a] l]| | | | | | | | |]; cbn [self_rest] in H; try discriminate H. destruct (str_eqb s SELF) eqn:E; [|discriminate].
    injection H as ->. apply str_eqb_eq in E as ->. eauto.
  - intros (lead & a & ->). reflexivity.
Qed.
Lemma self_rest_none t : self_rest t = None <-> ~ self_headed t.
Proof.
  split.
  - intros E (lead & a & rest & ->). discriminate.
  - intros N. destruct (self_rest t) as [rest|] eqn:E; [|reflexivity]. apply self_rest_some in E as (lead & a & ->).
    exfalso. apply N. now exists lead, a, rest.
Qed.
Lemma is_self_headed t : is_self t = true -> self_headed t.
Proof. intros E. apply is_self_spec in E as [lead ->]. now exists lead, ANone, []. Qed.

Lemma expand_eq tp s t : expand tp s t =
  if is_self t then s
  else match self_rest t with
       | Some rest => RPath (Some (s, List.length (snd tp))) (fst tp) (snd tp ++ rest)
       | None => tmap (expand tp s) t
       end.
Proof. destruct t; reflexivity. Qed.
Lemma rejects_eq h t : rejects h t =
  if is_self t then false
  else match self_rest t with
       | Some rest => negb h || match rest with [] => true | _ => false end
       | None => tany (rejects h) t
       end.
Proof. destruct t; reflexivity. Qed.

Lemma existsb_false {A} (f : A -> bool) l : existsb f l = false <-> Forall (fun a => f a = false) l.
Proof.
  induction l as [|a l IH]; cbn; [split; constructor|]. rewrite orb_false_iff, IH, Forall_cons_iff. reflexivity.
Qed.

Lemma expand_replaced tp s : forall t, rejects true t = false -> self_replaced tp s t (expand tp s t).
Proof.
  induction t as [t IH] using rty_ind'. rewrite rejects_eq, expand_eq. destruct (is_self t) eqn:I.
  - intros _. apply is_self_spec in I as [lead ->]. constructor.
  - destruct (self_rest t) as [rest|] eqn:R.
    + apply self_rest_some in R as (lead & a & ->). destruct rest as [|x rest]; [discriminate|]. intros _. constructor.
    + intros E. rewrite tany_children in E. apply existsb_false in E. apply sr_other.
      * now apply self_rest_none.
      * apply same_shape_map.
      * rewrite children_map. induction (children t) as [|c l IHl]; [constructor|]. inversion IH; subst. inversion E; subst.
        cbn [map]. constructor; auto.
Qed.

Lemma replaced_accepted tp s : forall t t', self_replaced tp s t t' -> rejects true t = false /\ expand tp s t = t'.
Proof.
  induction t as [t IH] using rty_ind'. intros t' H. destruct H as [lead|lead a x rest|t t' N S0 F]; [split; reflexivity|split; destruct a; reflexivity|].
  rewrite rejects_eq, expand_eq. destruct (is_self t) eqn:I; [exfalso; now apply N, is_self_headed|].
    apply self_rest_none in N. rewrite N, tany_children.
    assert (G : Forall (fun c => rejects true c = false) (children t) /\ map (expand tp s) (children t) = children t').
    { clear - IH F. revert F. generalize (children t'). induction (children t) as [|c l IHl]; intros l' F; inversion F; subst; [split; [constructor|reflexivity]|].
      inversion IH; subst. destruct (IHl H4 _ H3) as [A B]. destruct (H2 _ H1) as [C D]. split; [constructor; auto|]. cbn. congruence. }
    destruct G as [G1 G2]. split; [now apply existsb_false|]. apply shape_children.
    + unfold same_shape in *. rewrite <- S0. symmetry. apply same_shape_map.
    + now rewrite children_map.
Qed.

Lemma mentions_child t c : In c (children t) -> mentions_self c -> mentions_self t.
Proof. intros I (d & P & H). exists d. split; [econstructor; eauto|exact H]. Qed.
Lemma mentions_inv t : mentions_self t -> self_headed t \/ exists c, In c (children t) /\ mentions_self c.
Proof. intros (d & P & H). destruct P as [|t c d I P]; [now left|]. right. exists c. split; [exact I|]. now exists d. Qed.

Lemma expand_unchanged tp s : forall t, ~ mentions_self t -> rejects true t = false /\ rejects false t = false /\ expand tp s t = t.
Proof.
  induction t as [t IH] using rty_ind'. intros N. rewrite !rejects_eq, expand_eq.
  assert (H : ~ self_headed t) by (intros H; apply N; exists t; split; [constructor|exact H]).
  destruct (is_self t) eqn:I; [exfalso; now apply H, is_self_headed|]. apply self_rest_none in H. rewrite H, !tany_children.
  assert (G : Forall (fun c => rejects true c = false /\ rejects false c = false /\ expand tp s c = c) (children t)).
  { rewrite Forall_forall in *. intros c C. apply IH; [exact C|]. intros M. apply N. eapply mentions_child; eauto. }
  split; [|split].
  - apply existsb_false. eapply Forall_impl; [|exact G]. cbn beta. tauto.
  - apply existsb_false. eapply Forall_impl; [|exact G]. cbn beta. tauto.
  - transitivity (tmap (fun t => t) t); [|apply tmap_id]. apply tmap_ext. eapply Forall_impl; [|exact G]. cbn beta. tauto.
Qed.

Lemma schildren_app a b : schildren (a ++ b) = schildren a ++ schildren b.
Proof. unfold schildren. now rewrite map_app, concat_app. Qed.

Lemma expand_clean tp s :
  ~ mentions_self s -> (forall c, In c (schildren (snd tp)) -> ~ mentions_self c) ->
  forall t, (forall lead a rest c, part t (RPath None lead ((SELF, a) :: rest)) -> In c (schildren rest) -> ~ mentions_self c) ->
  ~ mentions_self (expand tp s t).
Proof.
  intros NS NT. induction t as [t IH] using rty_ind'. intros G. rewrite expand_eq.
  destruct (is_self t) eqn:I; [exact NS|]. destruct (self_rest t) as [rest|] eqn:R.
  - apply self_rest_some in R as (lead & a & ->). intros M. apply mentions_inv in M as [(l' & a' & r' & E)|(c & C & M)]; [discriminate|].
    cbn [children] in C. rewrite schildren_app in C. apply in_app_or in C as [[<-|[]]|C]; [now apply NS|].
    apply in_app_or in C as [C|C]; [now apply (NT c)|]. eapply G; [constructor|exact C|exact M].
  - intros M. apply self_rest_none in R. apply mentions_inv in M as [(l' & a' & r' & E)|(c & C & M)].
    + apply R. destruct t; cbn [tmap] in E; try discriminate. destruct qself as [[q n]|]; [discriminate|].
      destruct segs as [|[x y] segs]; [discriminate|]. injection E as <- -> _ _. now exists lead, y, segs.
    + rewrite children_map in C. apply in_map_iff in C as (d & <- & C). rewrite Forall_forall in IH.
      apply (IH d C); [|exact M]. intros lead a rest c P. apply G with lead a. econstructor; eauto.
Qed.

Lemma rejected_iff t : rejects false t = true <-> exists lead a rest, part t (RPath None lead ((SELF, a) :: rest)) /\ (a, rest) <> (ANone, []).
Proof.
  induction t as [t IH] using rty_ind'. rewrite rejects_eq. destruct (is_self t) eqn:I.
  - split; [discriminate|]. intros (lead & a & rest & P & N). apply is_self_spec in I as [l ->]. inversion P; subst; [|destruct H]. congruence.
  - destruct (self_rest t) as [rest|] eqn:R.
    + cbn [negb orb]. split; [|reflexivity]. intros _. apply self_rest_some in R as (lead & a & ->). exists lead, a, rest. split; [constructor|].
      intros E. injection E as -> ->. discriminate.
    + rewrite tany_children, existsb_exists. rewrite Forall_forall in IH. split.
      * intros (c & C & E). apply IH in E as (lead & a & rest & P & N); [|exact C]. exists lead, a, rest. split; [econstructor; eauto|exact N].
      * intros (lead & a & rest & P & N). apply self_rest_none in R. inversion P as [|t' c d C P']; subst.
        -- exfalso. apply R. now exists lead, a, rest.
        -- exists c. split; [exact C|]. apply IH; [exact C|]. now exists lead, a, rest.
Qed.

(** ** Generic parameters *)

(** A generic parameter (syn [GenericParam]); bounds and defaults are left out. *)
Inductive gparam := PLifetime (s : str) | PType (s : str) | PConst (s : str).

(** macro/src/lib.rs:810-837 [generic_params_map]; the map as an association list. *)
Definition generic_params_map (params : list gparam) (args : list (garg rty)) : outcome (list (str * garg rty)) :=
  if List.length params <? List.length args then Panic
  else Ret (List.concat (map (fun '(k, v) => match k with PType s => [(s, v)] | _ => [] end)
              (combine (skipn (List.length params - List.length args) params) args))).

(** [BTreeMap::get] on a map collected from pairs (std): the last pair counts. *)
Fixpoint get {V} (m : list (str * V)) (k : str) : option V :=
  match m with
  | [] => None
  | (k', v) :: m => match get m k with Some v' => Some v' | None => if str_eqb k' k then Some v else None end
  end.

(** [Path::get_ident] (syn) of a path type without self type. *)
Definition ident_of (t : rty) : option str :=
  match t with RPath None false [(s, ANone)] => Some s | _ => None end.

(** macro/src/type_utils.rs:28-50 [GenericParamVisitor::visit_type_mut], when nothing is rejected. *)
Definition lookup (m : list (str * garg rty)) (t : rty) : option (garg rty) :=
  match ident_of t with Some s => get m s | None => None end.
Fixpoint subst (m : list (str * garg rty)) (t : rty) : rty :=
  match lookup m t with
  | Some (GType t') => t'
  | Some _ => t
  | None => tmap (subst m) t
  end.
(** macro/src/type_utils.rs:37-42: the [panic!]. *)
Fixpoint subst_rejects (m : list (str * garg rty)) (t : rty) : bool :=
  match lookup m t with
  | Some (GType _) => false
  | Some _ => true
  | None => tany (subst_rejects m) t
  end.
(** macro/src/type_utils.rs:17-22 [map_type_generic_params]. *)
Definition map_type_generic_params (m : list (str * garg rty)) (t : rty) : outcome rty :=
  if subst_rejects m t then Panic else Ret (subst m t).

(** *** Specification *)

(** [t'] is [t] with every type name in the domain of [m] replaced. *)
Inductive params_replaced (m : str -> option (garg rty)) : rty -> rty -> Prop :=
  | pr_param s t' : m s = Some (GType t') -> params_replaced m (RPath None false [(s, ANone)]) t'
  | pr_other t t' : (forall s, t = RPath None false [(s, ANone)] -> m s = None) -> same_shape t t' ->
      Forall2 (params_replaced m) (children t) (children t') -> params_replaced m t t'.

Lemma subst_eq m t : subst m t = match lookup m t with Some (GType t') => t' | Some _ => t | None => tmap (subst m) t end.
Proof. destruct t; reflexivity. Qed.
Lemma subst_rejects_eq m t : subst_rejects m t =
  match lookup m t with Some (GType _) => false | Some _ => true | None => tany (subst_rejects m) t end.
Proof. destruct t; reflexivity. Qed.

Lemma ident_of_some t s : ident_of t = Some s <-> t = RPath None false [(s, ANone)].
Proof.
  split; [|intros ->; reflexivity]. intros E. destruct t as [[?|] [|] [|[x [| |]] [|]]| | | | | | | | |]; cbn [ident_of] in E; try discriminate E. congruence.
Qed.
Lemma lookup_none m t : lookup m t = None <-> forall s, t = RPath None false [(s, ANone)] -> get m s = None.
Proof.
  unfold lookup. destruct (ident_of t) as [s|] eqn:E.
  - apply ident_of_some in E as ->. split; [intros H s' E'; injection E' as <-; exact H|intros H; now apply H].
  - split; [|reflexivity]. intros _ s ->. discriminate.
Qed.

Lemma subst_replaced m : forall t, subst_rejects m t = false -> params_replaced (get m) t (subst m t).
Proof.
  induction t as [t IH] using rty_ind'. rewrite subst_rejects_eq, subst_eq. destruct (lookup m t) as [g|] eqn:L.
  - destruct g; try discriminate. intros _. unfold lookup in L. destruct (ident_of t) as [s|] eqn:I; [|discriminate].
    apply ident_of_some in I as ->. now constructor.
  - intros E. rewrite tany_children in E. apply existsb_false in E. apply pr_other; [now apply lookup_none|apply same_shape_map|].
    rewrite children_map. induction (children t) as [|c l IHl]; [constructor|]. inversion IH; subst. inversion E; subst.
    cbn [map]. constructor; auto.
Qed.
Lemma replaced_subst m : forall t t', params_replaced (get m) t t' -> subst_rejects m t = false /\ subst m t = t'.
Proof.
  induction t as [t IH] using rty_ind'. intros t' H. destruct H as [s t' E|t t' N S0 F]; rewrite subst_rejects_eq, subst_eq.
  - unfold lookup. cbn [ident_of]. rewrite E. auto.
  - apply lookup_none in N. rewrite N, tany_children.
    assert (G : Forall (fun c => subst_rejects m c = false) (children t) /\ map (subst m) (children t) = children t').
    { clear - IH F. revert F. generalize (children t'). induction (children t) as [|c l IHl]; intros l' F; inversion F; subst; [split; [constructor|reflexivity]|].
      inversion IH; subst. destruct (IHl H4 _ H3) as [A B]. destruct (H2 _ H1) as [C D]. split; [constructor; auto|]. cbn. congruence. }
    destruct G as [G1 G2]. split; [now apply existsb_false|]. apply shape_children.
    + unfold same_shape in *. rewrite <- S0. symmetry. apply same_shape_map.
    + now rewrite children_map.
Qed.

(** [s] occurs in [t] as a type. *)
Definition mentions (s : str) (t : rty) : Prop := part t (RPath None false [(s, ANone)]).

Lemma subst_clean m x :
  (forall s t, get m s = Some (GType t) -> ~ mentions x t) -> (exists t, get m x = Some (GType t)) -> forall t, subst_rejects m t = false -> ~ mentions x (subst m t).
Proof.
  intros C [tx X]. induction t as [t IH] using rty_ind'. rewrite subst_rejects_eq, subst_eq. destruct (lookup m t) as [g|] eqn:L.
  - destruct g; try discriminate. intros _. unfold lookup in L. destruct (ident_of t) as [s|] eqn:I; [|discriminate]. now apply (C s).
  - intros E. rewrite tany_children in E. apply existsb_false in E. intros M. unfold mentions in M.
    remember (tmap (subst m) t) as u eqn:U. remember (RPath None false [(x, ANone)]) as v eqn:V. destruct M as [u|u c v I P].
    + assert (H : tmap (subst m) t = RPath None false [(x, ANone)]) by congruence. clear U V. destruct t; cbn [tmap] in H; try discriminate. destruct qself as [[q n]|]; [discriminate|].
      destruct segs as [|[y b] [|]]; try discriminate. cbn [option_map smap map fst snd] in H. injection H as -> -> H.
      destruct b; try discriminate. unfold lookup in L. cbn [ident_of] in L. congruence.
    + subst u v. rewrite children_map in I. apply in_map_iff in I as (d & <- & I). rewrite Forall_forall in *. exact (IH d I (E d I) P).
Qed.

(** ** Lifetimes *)

Definition is_lt_param (p : gparam) : bool := match p with PLifetime _ => true | _ => false end.
Definition is_type_param (p : gparam) : bool := match p with PType _ => true | _ => false end.

(** macro/src/lib.rs:382-396 [combined_generic_args_with_dummy_lifetimes]. *)
Definition with_dummy_lifetimes (params : list gparam) (args : list (garg rty)) : outcome (list (garg rty)) :=
  let np := List.length (filter is_lt_param params) in
  let na := List.length (filter is_lifetime args) in
  if np <? na then Panic else Ret (args ++ repeat (GLifetime (lit "'static")) (np - na)).

(** macro/src/lib.rs:1084-1093 [combine_options]. *)
Definition combine_options {T} (x y : option T) (f : T -> T -> T) : option T :=
  match x, y with
  | Some x, Some y => Some (f x y)
  | x, None => x
  | None, y => y
  end.

(** macro/src/lib.rs:1064-1076 [combine_generics], parameters only. *)
Definition combine_generics (l r : list gparam) : list gparam := l ++ r.
