(** C91 and C92: generic arguments and bounds in the generated code. *)
From Coq Require Import List Ascii String Bool Arith NArith Lia.
From Verif Require Import Base Syntax SelfTy Generics.
Import ListNotations.
Local Open Scope nat_scope.

(** ** Specification *)

(** The types and constants among parameters and among arguments. *)
Definition is_value_param (p : gparam) : bool := match p with PLifetime _ => false | _ => true end.
Definition is_value_arg (a : garg rty) : bool := match a with GLifetime _ => false | _ => true end.

(** Rust reference, "Generics": lifetimes aside, the k-th argument is for the k-th parameter,
    and there must be as many. *)
Definition assigns (ps : list gparam) (args : list (garg rty)) (p : gparam) (a : garg rty) : Prop :=
  exists k, nth_error (filter is_value_param ps) k = Some p /\ nth_error (filter is_value_arg args) k = Some a.
Definition fits (ps : list gparam) (args : list (garg rty)) : Prop :=
  List.length (filter is_value_arg args) = List.length (filter is_value_param ps).

(** Lifetimes must come first, among parameters and among arguments. *)
Definition ordered {A} (value : A -> bool) (l : list A) : Prop := forall a x b y c, l = a ++ x :: b ++ y :: c -> value x = true -> value y = true.

Definition names (g : gen) : list gparam := map fst (gn_params g).
Definition given (o : option (list (garg rty))) : list (garg rty) := match o with Some l => l | None => [] end.

(** What is demanded of a parameter, and what else. *)
Definition bound_in (l : list (gparam * list str)) (p : gparam) (b : str) : Prop := exists bs, In (p, bs) l /\ In b bs.
Definition predicate_of (g : gen) (w : str) : Prop := exists l, gn_where g = Some l /\ In w l.

(** ** Proofs *)

Lemma lt_value p : is_value_param p = negb (is_lt_param p).
Proof. now destruct p. Qed.
Lemma filter_filter_and A (f g : A -> bool) l : filter f (filter g l) = filter (fun x => g x && f x) l.
Proof. induction l as [|a l IH]; [reflexivity|]. cbn. destruct (g a) eqn:G; cbn; [destruct (f a); now rewrite IH|exact IH]. Qed.
Lemma filter_none A (f : A -> bool) l : (forall a, In a l -> f a = false) -> filter f l = [].
Proof. induction l as [|a l IH]; intros H; [reflexivity|]. cbn. rewrite (H a) by now left. apply IH. intros b I. apply H. now right. Qed.
Lemma filter_all A (f : A -> bool) l : (forall a, In a l -> f a = true) -> filter f l = l.
Proof. induction l as [|a l IH]; intros H; [reflexivity|]. cbn. rewrite (H a) by now left. f_equal. apply IH. intros b I. apply H. now right. Qed.
Lemma filter_ext_in' A (f g : A -> bool) l : (forall a, In a l -> f a = g a) -> filter f l = filter g l.
Proof. induction l as [|a l IH]; intros H; [reflexivity|]. cbn. rewrite (H a) by now left. rewrite IH; [reflexivity|]. intros b I. apply H. now right. Qed.
Lemma filter_map_fst (f : gparam -> bool) (l : list (gparam * list str)) : filter f (map fst l) = map fst (filter (fun x => f (fst x)) l).
Proof. induction l as [|a l IH]; [reflexivity|]. cbn. destruct (f (fst a)); cbn; now rewrite IH. Qed.

(** The values of the printed parameters are those of the impl and those of the function. *)
Lemma printed_values l : filter is_value_param (map fst (lifetimes_first l)) = filter is_value_param (map fst l).
Proof.
  unfold lifetimes_first. rewrite map_app, filter_app, !filter_map_fst, !filter_filter_and.
  rewrite filter_none.
  - cbn [map app]. f_equal. apply filter_ext_in'. intros [p b] _. cbn. rewrite lt_value. now destruct (is_lt_param p).
  - intros [p b] _. cbn. rewrite lt_value. now destruct (is_lt_param p).
Qed.
Lemma item_values impl fn : filter is_value_param (map fst (it_params (generic_item impl fn))) = filter is_value_param (names impl) ++ filter is_value_param (names fn).
Proof. cbn [generic_item it_params combine_gen gn_params]. rewrite printed_values, map_app. apply filter_app. Qed.

(** A list with the lifetimes first. *)
Lemma ordered_split A (value : A -> bool) l : ordered value l -> l = filter (fun x => negb (value x)) l ++ filter value l.
Proof.
  induction l as [|x l IH]; intros O; [reflexivity|]. cbn. destruct (value x) eqn:V; cbn.
  - assert (H : forall y, In y l -> value y = true).
    { intros y I. apply in_split in I as (b & c & ->). apply (O [] x b y c); [reflexivity|exact V]. }
    rewrite filter_none by (intros a I; now rewrite (H a I)). cbn. f_equal. symmetry. now apply filter_all.
  - f_equal. apply IH. intros a y b z c -> Vy. apply (O (x :: a) y b z c); [reflexivity|exact Vy].
Qed.
Lemma combine_app A B (a a' : list A) (b b' : list B) : List.length a = List.length b -> combine (a ++ a') (b ++ b') = combine a b ++ combine a' b'.
Proof. revert b. induction a as [|x a IH]; intros [|y b] L; try discriminate; [reflexivity|]. cbn. f_equal. apply IH. now injection L. Qed.

Lemma map_values params args m :
  ordered is_value_param params -> ordered is_value_arg args -> fits params args -> generic_params_map params args = Ret m ->
  m = List.concat (map (fun '(k, v) => match k with PType s => [(s, v)] | _ => [] end) (combine (filter is_value_param params) (filter is_value_arg args))).
Proof.
  intros Op Oa F E. unfold generic_params_map in E. destruct (_ <? _) eqn:L in E; [discriminate|]. apply Nat.ltb_ge in L.
  assert (m = List.concat (map (fun '(k, v) => match k with PType s => [(s, v)] | _ => [] end) (combine (skipn (List.length params - List.length args) params) args))) by congruence.
  subst m. clear E. unfold fits in F. apply ordered_split in Op, Oa.
  set (lp := filter (fun x => negb (is_value_param x)) params) in *. set (vp := filter is_value_param params) in *.
  set (la := filter (fun x => negb (is_value_arg x)) args) in *. set (va := filter is_value_arg args) in *.
  assert (Lp : List.length params = List.length lp + List.length vp) by (rewrite Op at 1; apply app_length).
  assert (La : List.length args = List.length la + List.length va) by (rewrite Oa at 1; apply app_length).
  assert (K : List.length params - List.length args = List.length lp - List.length la) by lia. rewrite K.
  rewrite Op at 1. rewrite Oa at 1. rewrite skipn_app.
  replace (List.length lp - List.length la - List.length lp) with 0 by lia. cbn [skipn].
  rewrite combine_app by (rewrite skipn_length; lia). rewrite map_app, concat_app.
  assert (Z : List.concat (map (fun '(k, v) => match k with PType s => [(s, v)] | _ => [] end) (combine (skipn (List.length lp - List.length la) lp) la)) = []); [|now rewrite Z].
  assert (H : forall k v, In (k, v) (combine (skipn (List.length lp - List.length la) lp) la) -> exists s, k = PLifetime s).
  { intros k v I. apply in_combine_l in I. assert (I' : In k lp) by (rewrite <- (firstn_skipn (List.length lp - List.length la) lp); apply in_app_iff; now right).
    apply filter_In in I' as [_ I']. destruct k; try discriminate. eauto. }
  clear - H. induction (combine _ la) as [|[k v] l IH]; [reflexivity|]. cbn. destruct (H k v) as (s & ->); [now left|]. apply IH. intros k' v' I. apply (H k' v'). now right.
Qed.

Lemma get_combine : forall (vp : list gparam) (va : list (garg rty)) x a, NoDup vp ->
  (get (List.concat (map (fun '(k, v) => match k with PType s => [(s, v)] | _ => [] end) (combine vp va))) x = Some a <->
   exists k, nth_error vp k = Some (PType x) /\ nth_error va k = Some a).
Proof.
  induction vp as [|p vp IH]; intros va x a ND.
  - cbn. split; [discriminate|]. intros ([|k] & E & _); discriminate.
  - inversion ND as [|? ? NI ND']; subst. destruct va as [|v va].
    + cbn. split; [discriminate|]. intros ([|k] & _ & E); discriminate.
    + specialize (IH va x a ND'). cbn [combine map List.concat].
      assert (S : (exists k, nth_error (p :: vp) k = Some (PType x) /\ nth_error (v :: va) k = Some a) <->
                  (p = PType x /\ v = a) \/ exists k, nth_error vp k = Some (PType x) /\ nth_error va k = Some a).
      { split.
        - intros ([|k] & E & F); cbn in E, F; [left; split; congruence|right; eauto].
        - intros [[-> ->]|(k & E & F)]; [now exists 0|now exists (S k)]. }
      rewrite S. destruct p as [s|s|s]; cbn [app get].
      * rewrite IH. split; [auto|]. intros [[E _]|H]; [discriminate|exact H].
      * destruct (get _ x) as [v'|] eqn:G.
        -- split.
           ++ intros E. injection E as ->. right. now apply IH.
           ++ intros [[E _]|H]; [|now apply IH in H]. exfalso. injection E as ->. apply NI.
              assert (Q : forall b, get (List.concat (map (fun '(k, v) => match k with PType s => [(s, v)] | _ => [] end) (combine vp va))) x = Some b -> In (PType x) vp).
              { clear. revert va. induction vp as [|p vp IH]; intros [|w va] b; cbn; try discriminate. destruct p as [s|s|s]; cbn [app get]; intros E.
                - right. eapply IH; exact E.
                - destruct (get _ x) eqn:G; [right; eapply IH; exact G|]. destruct (str_eqb s x) eqn:Q; [|discriminate]. apply str_eqb_eq in Q as ->. now left.
                - right. eapply IH; exact E. }
              exact (Q _ G).
        -- destruct (str_eqb s x) eqn:Q.
           ++ apply str_eqb_eq in Q as ->. split.
              ** intros E. injection E as ->. now left.
              ** intros [[_ ->]|H]; [reflexivity|]. apply IH in H. discriminate.
           ++ split; [discriminate|]. intros [[E _]|H]; [injection E as ->; rewrite str_eqb_same in Q; discriminate|]. apply IH in H. discriminate.
      * rewrite IH. split; [auto|]. intros [[E _]|H]; [discriminate|exact H].
Qed.

Lemma given_combined ia fa : given (harness_args ia fa) = given ia ++ given fa.
Proof. destruct ia, fa; cbn; try reflexivity. now rewrite app_nil_r. Qed.

Lemma nodup_filter A (f : A -> bool) l : NoDup l -> NoDup (filter f l).
Proof. intros H. induction H; cbn; [constructor|]. destruct (f x); [constructor; [|assumption]|assumption]. rewrite filter_In. tauto. Qed.

Lemma nodup_left A (l l' : list A) : NoDup (l ++ l') -> NoDup l.
Proof. induction l as [|a l IH]; cbn; intros H; [constructor|]. inversion H as [|? ? N H']; subst. constructor; [|auto]. intros I. apply N. apply in_app_iff. now left. Qed.
Lemma nodup_apart A (l l' : list A) a : NoDup (l ++ l') -> In a l -> In a l' -> False.
Proof. induction l as [|b l IH]; cbn; intros H I J; [contradiction|]. inversion H as [|? ? N H']; subst. destruct I as [->|I]; [apply N, in_app_iff; now right|auto]. Qed.

(** The harness, the type it is called on, the function it calls, and the type of the result
    that is shown are all instantiated alike: wherever the compiler finds the arguments
    complete, each type parameter of the impl stands for the same type in [Args] and in the
    type of which the method is called, and each parameter of the function for the same
    argument in [Args] and in the call. *)
Theorem C91_one_instantiation :
  forall (impl fn : gen) (ia fa : option (list (garg rty))) (m : list (str * garg rty)) (ra : list (garg rty)),
    ordered is_value_param (names impl) -> ordered is_value_arg (given ia) -> NoDup (names impl ++ names fn) ->
    generic_params_map (names impl) (given ia) = Ret m -> result_args (names (combine_gen impl fn)) ia fa = Ret ra ->
    let args_params := map fst (it_params (generic_item impl fn)) in
    fits args_params (given (harness_args ia fa)) -> fits (names fn) (given fa) ->
    (forall x a, In (PType x) (names impl) -> (assigns args_params (given (harness_args ia fa)) (PType x) a <-> get m x = Some a)) /\
    (forall p a, In p (names fn) -> (assigns args_params (given (harness_args ia fa)) p a <-> assigns (names fn) (given fa) p a)) /\
    (forall p a, assigns args_params ra p a <-> assigns args_params (given (harness_args ia fa)) p a).
Proof.
  intros impl fn ia fa m ra Op Oa ND M R ps F Ff. unfold fits in F, Ff. subst ps. unfold assigns. rewrite item_values in *. rewrite given_combined in *. rewrite filter_app in *.
  rewrite !app_length in F.
  assert (Fi : fits (names impl) (given ia)) by (unfold fits; lia). pose proof (map_values _ _ _ Op Oa Fi M) as ->.
  assert (NDi : NoDup (filter is_value_param (names impl))) by (apply nodup_filter; now apply nodup_left in ND).
  unfold fits in Fi.
  split; [|split].
  - intros x a I. rewrite get_combine by exact NDi. split.
    + intros (k & E & G). exists k. destruct (Nat.lt_ge_cases k (List.length (filter is_value_param (names impl)))) as [K|K].
      * rewrite nth_error_app1 in E by exact K. rewrite nth_error_app1 in G by lia. auto.
      * exfalso. rewrite nth_error_app2 in E by exact K. apply nth_error_In in E. apply filter_In in E as [E _]. exact (nodup_apart _ _ _ _ ND I E).
    + intros (k & E & G). exists k. assert (K : k < List.length (filter is_value_param (names impl))) by (apply nth_error_Some; congruence).
      rewrite !nth_error_app1 by lia. auto.
  - intros p a I. split.
    + intros (k & E & G). destruct (Nat.lt_ge_cases k (List.length (filter is_value_param (names impl)))) as [K|K].
      * exfalso. rewrite nth_error_app1 in E by exact K. apply nth_error_In in E. apply filter_In in E as [E _]. exact (nodup_apart _ _ _ _ ND E I).
      * rewrite nth_error_app2 in E by exact K. rewrite nth_error_app2 in G by lia. rewrite Fi in G. eauto.
    + intros (k & E & G). exists (List.length (filter is_value_param (names impl)) + k).
      rewrite !nth_error_app2 by lia. rewrite Fi. replace (_ + k - _) with k by lia. auto.
  - intros p a. assert (H : filter is_value_arg ra = filter is_value_arg (given ia) ++ filter is_value_arg (given fa)); [|now rewrite H].
    unfold result_args, with_dummy_lifetimes in R. destruct (_ <? _) in R; [discriminate|]. injection R as <-. rewrite filter_app.
    rewrite (filter_none _ _ (repeat _ _)) by (intros b I; apply repeat_spec in I; now subst b). rewrite app_nil_r.
    destruct ia, fa; cbn [harness_args combine_options given app filter]; rewrite ?filter_app, ?app_nil_r; reflexivity.
Qed.
Print Assumptions C91_one_instantiation.

(** The arguments for the type of the result are the ones given, those of the impl first, followed by
    one ['static] for each lifetime that is missing; only too many lifetimes are refused. *)
Theorem C91_result_args :
  forall (params : list gparam) (ia fa : option (list (garg rty))),
    let lifetimes := List.length (filter (fun p => negb (is_value_param p)) params) in
    let supplied := List.length (filter (fun a => negb (is_value_arg a)) (given ia ++ given fa)) in
    result_args params ia fa =
      if Nat.leb supplied lifetimes then Ret ((given ia ++ given fa) ++ repeat (GLifetime (lit "'static")) (lifetimes - supplied)) else Panic.
Proof.
  intros params ia fa lifetimes supplied. unfold result_args, with_dummy_lifetimes.
  assert (H : match harness_args ia fa with Some l => l | None => [] end = given ia ++ given fa) by (destruct ia, fa; cbn; rewrite ?app_nil_r; reflexivity).
  rewrite H. rewrite (filter_ext is_lt_param (fun p => negb (is_value_param p))) by (intros []; reflexivity).
  rewrite (filter_ext is_lifetime (fun a => negb (is_value_arg a))) by (intros []; reflexivity). fold lifetimes supplied.
  rewrite Nat.ltb_antisym. destruct (supplied <=? lifetimes); reflexivity.
Qed.
Print Assumptions C91_result_args.

(** The recorded type names are those of the type parameters, in order; without constants these
    are the values for which arguments must be given. *)
Theorem C91_recorded_types :
  forall (impl fn : gen),
    (forall x, ~ In (PConst x) (names impl ++ names fn)) ->
    map PType (fst (recorded_types impl fn)) = filter is_value_param (names impl) /\
    map PType (snd (recorded_types impl fn)) = filter is_value_param (names fn) /\
    map PType (fst (recorded_types impl fn) ++ snd (recorded_types impl fn)) = filter is_value_param (map fst (it_params (generic_item impl fn))).
Proof.
  intros impl fn N. assert (H : forall l : list (gparam * list str), (forall x, ~ In (PConst x) (map fst l)) ->
    map PType (List.concat (map (fun '(p, _) => match p with PType x => [x] | _ => [] end) l)) = filter is_value_param (map fst l)).
  { induction l as [|[p b] l IH]; intros K; [reflexivity|]. cbn [map List.concat fst filter]. rewrite map_app, IH by (intros x I; apply (K x); now right).
    destruct p; cbn; try reflexivity. exfalso. eapply K. now left. }
  assert (A : map PType (fst (recorded_types impl fn)) = filter is_value_param (names impl)) by (apply H; intros x I; apply (N x), in_app_iff; now left).
  assert (B : map PType (snd (recorded_types impl fn)) = filter is_value_param (names fn)) by (apply H; intros x I; apply (N x), in_app_iff; now right).
  split; [exact A|]. split; [exact B|]. rewrite map_app, A, B, item_values. reflexivity.
Qed.
Print Assumptions C91_recorded_types.

(** The lifetimes of the function follow the types of the impl where both are given, which the
    compiler rejects although each list is in order. *)
Theorem C91_order_refuted :
  exists (impl fn : gen) (ia fa : list (garg rty)),
    fits (names impl) ia /\ fits (names fn) fa /\ ordered is_value_arg ia /\ ordered is_value_arg fa /\
    ~ ordered is_value_arg (given (harness_args (Some ia) (Some fa))).
Proof.
  exists {| gn_params := [(PType (lit "T"), [])]; gn_where := None |}, {| gn_params := [(PLifetime (lit "'a"), [])]; gn_where := None |},
    [GType (rname "u8")], [GLifetime (lit "'static")].
  split; [reflexivity|]. split; [reflexivity|].
  assert (S : forall x : garg rty, ordered is_value_arg [x]).
  { intros x a y b z c E. apply (f_equal (@List.length _)) in E. rewrite app_length in E. cbn in E. rewrite app_length in E. cbn in E. lia. }
  split; [apply S|]. split; [apply S|]. intros O. specialize (O [] (GType (rname "u8")) [] (GLifetime (lit "'static")) [] eq_refl eq_refl). discriminate.
Qed.
Print Assumptions C91_order_refuted.

Definition ex_impl : gen := {| gn_params := [(PLifetime (lit "'a"), []); (PType (lit "T"), [lit "Clone"])]; gn_where := Some [lit "T: Debug"] |}.
Definition ex_fn : gen := {| gn_params := [(PLifetime (lit "'b"), [lit "'a"]); (PType (lit "U"), [])]; gn_where := Some [lit "U: From<T>"] |}.
Example C91_example :
  let ia := [GType (rname "u8")] in let fa := [GType (rname "u16")] in
  map fst (it_params (generic_item ex_impl ex_fn)) = [PLifetime (lit "'a"); PLifetime (lit "'b"); PType (lit "T"); PType (lit "U")] /\
  given (harness_args (Some ia) (Some fa)) = [GType (rname "u8"); GType (rname "u16")] /\
  generic_params_map (names ex_impl) ia = Ret [(lit "T", GType (rname "u8"))] /\
  assigns (map fst (it_params (generic_item ex_impl ex_fn))) (ia ++ fa) (PType (lit "U")) (GType (rname "u16")) /\
  recorded_types ex_impl ex_fn = ([lit "T"], [lit "U"]).
Proof. cbn zeta. split; [reflexivity|]. split; [reflexivity|]. split; [reflexivity|]. split; [exists 1; split; reflexivity|reflexivity]. Qed.

(** ** C92 *)

Lemma bound_app l l' p b : bound_in (l ++ l') p b <-> bound_in l p b \/ bound_in l' p b.
Proof.
  unfold bound_in. split.
  - intros (bs & I & J). apply in_app_iff in I as [I|I]; eauto.
  - intros [(bs & I & J)|(bs & I & J)]; exists bs; rewrite in_app_iff; auto.
Qed.
Lemma lifetimes_first_in l x : In x (lifetimes_first l) <-> In x l.
Proof. unfold lifetimes_first. rewrite in_app_iff, !filter_In. destruct (is_lt_param (fst x)); intuition discriminate. Qed.
Lemma bound_first l p b : bound_in (lifetimes_first l) p b <-> bound_in l p b.
Proof. unfold bound_in. split; intros (bs & I & J); exists bs; [rewrite lifetimes_first_in in I|rewrite lifetimes_first_in]; auto. Qed.
Lemma ordered_first l : ordered (fun x => is_value_param (fst x)) (lifetimes_first l).
Proof.
  unfold lifetimes_first, ordered. intros a x b y c E V.
  assert (H : forall (u v : list (gparam * list str)), (forall z, In z u -> is_value_param (fst z) = false) -> (forall z, In z v -> is_value_param (fst z) = true) ->
             u ++ v = a ++ x :: b ++ y :: c -> is_value_param (fst y) = true).
  { clear E. intros u. revert a. induction u as [|z u IH]; intros a v Hu Hv E.
    - cbn in E. apply Hv. rewrite E, in_app_iff. right. right. apply in_app_iff. right. now left.
    - destruct a as [|w a]; cbn in E; injection E as -> E.
      + rewrite (Hu x) in V by now left. discriminate.
      + apply (IH a v); [intros; apply Hu; now right|exact Hv|exact E]. }
  eapply H; [| |exact E]; intros z I; apply filter_In in I as [_ I]; rewrite lt_value; [now rewrite I|exact I].
Qed.
Lemma where_spec impl fn w : In w (or_none (gn_where (combine_gen impl fn))) <-> predicate_of impl w \/ predicate_of fn w.
Proof.
  unfold predicate_of. cbn [combine_gen gn_where]. destruct (gn_where impl) as [a|], (gn_where fn) as [b|]; cbn [combine_options or_none]; rewrite ?in_app_iff.
  - split; [intros [I|I]; eauto|]. intros [(l & E & I)|(l & E & I)]; injection E as <-; auto.
  - split; [eauto|]. intros [(l & E & I)|(l & E & I)]; [injection E as <-; auto|discriminate].
  - split; [eauto|]. intros [(l & E & I)|(l & E & I)]; [discriminate|injection E as <-; auto].
  - split; [intros []|]. intros [(l & E & I)|(l & E & I)]; discriminate.
Qed.
Lemma restrict_bound l p b :
  bound_in (map (fun '(p, bs) => match p with PType _ => (p, bs ++ [deserialize_owned]) | _ => (p, bs) end) l) p b <->
  bound_in l p b \/ (b = deserialize_owned /\ exists x, p = PType x /\ In p (map fst l)).
Proof.
  unfold bound_in. split.
  - intros (bs & I & J). apply in_map_iff in I as ([q cs] & E & I). destruct q as [s|s|s]; injection E as <- <-; [left; eauto| |left; eauto].
    apply in_app_iff in J as [J|[<-|[]]]; [left; eauto|]. right. split; [reflexivity|]. exists s. split; [reflexivity|]. apply in_map_iff. now exists (PType s, cs).
  - intros [(bs & I & J)|(-> & x & -> & I)].
    + destruct p as [s|s|s]; [exists bs|exists (bs ++ [deserialize_owned])|exists bs]; rewrite ?in_app_iff; (split; [|auto]); apply in_map_iff; eexists; (split; [|exact I]); reflexivity.
    + apply in_map_iff in I as ([q cs] & E & I). cbn in E. subst q. exists (cs ++ [deserialize_owned]). rewrite in_app_iff. split; [|right; now left].
      apply in_map_iff. now exists (PType x, cs).
Qed.

(** The generated functions and implementations demand of the parameters exactly what the impl
    and the function demand, so they can be used wherever the function can; reading additionally
    demands that every type parameter can be deserialised, and nothing else; the structures
    demand what the option [bounds] says.  All declare the parameters of impl and function,
    lifetimes first. *)
Theorem C92_bounds_exact :
  forall (impl fn : gen) (bounds : option (list str)),
    let declares l p := In p (map fst l) in
    (forall p, declares (it_params (generic_item impl fn)) p <-> In p (names impl) \/ In p (names fn)) /\
    (forall p b, bound_in (it_params (generic_item impl fn)) p b <-> bound_in (gn_params impl) p b \/ bound_in (gn_params fn) p b) /\
    (forall w, In w (it_where (generic_item impl fn)) <-> predicate_of impl w \/ predicate_of fn w) /\
    (forall p, declares (it_params (read_item_generics impl fn)) p <-> In p (names impl) \/ In p (names fn)) /\
    (forall p b, bound_in (it_params (read_item_generics impl fn)) p b <->
                 bound_in (gn_params impl) p b \/ bound_in (gn_params fn) p b \/
                 (b = lit "serde::de::DeserializeOwned" /\ exists x, p = PType x /\ (In p (names impl) \/ In p (names fn)))) /\
    (forall w, In w (it_where (read_item_generics impl fn)) <-> predicate_of impl w \/ predicate_of fn w) /\
    (forall p, declares (it_params (struct_item impl fn bounds)) p <-> In p (names impl) \/ In p (names fn)) /\
    (forall p b, ~ bound_in (it_params (struct_item impl fn bounds)) p b) /\
    (forall w, In w (it_where (struct_item impl fn bounds)) <-> exists l, bounds = Some l /\ In w l) /\
    ordered (fun x => is_value_param (fst x)) (it_params (generic_item impl fn)) /\
    ordered (fun x => is_value_param (fst x)) (it_params (read_item_generics impl fn)) /\
    ordered (fun x => is_value_param (fst x)) (it_params (struct_item impl fn bounds)).
Proof.
  intros impl fn bounds declares.
  assert (D : forall l p, declares (lifetimes_first l) p <-> In p (map fst l)).
  { intros l p. unfold declares. rewrite !in_map_iff. split; intros (x & E & I); exists x; [rewrite lifetimes_first_in in I|rewrite lifetimes_first_in]; auto. }
  assert (C : forall p, In p (map fst (gn_params impl ++ gn_params fn)) <-> In p (names impl) \/ In p (names fn)) by (intros p; rewrite map_app; apply in_app_iff).
  assert (RM : forall l, map fst (map (fun '(p, bs) => match p with PType _ => (p, bs ++ [deserialize_owned]) | _ => (p, bs) end) l) = @map (gparam * list str) gparam fst l).
  { intros l. rewrite map_map. apply map_ext. intros [[s|s|s] bs]; reflexivity. }
  cbn [generic_item read_item_generics struct_item it_params it_where combine_gen gn_params restrict_gen].
  split; [intros p; rewrite D; apply C|]. split; [intros p b; rewrite bound_first; apply bound_app|]. split; [apply where_spec|].
  split; [intros p; rewrite D, RM; apply C|].
  split; [intros p b; rewrite bound_first, restrict_bound, bound_app; setoid_rewrite C; tauto|]. split; [apply where_spec|].
  split; [intros p; unfold declares; rewrite map_map; cbn [fst]; rewrite <- C; apply D|].
  split; [intros p b (bs & I & J); apply in_map_iff in I as (x & E & _); injection E as <- <-; destruct J|].
  split; [intros w; destruct bounds as [l|]; cbn; split; [eauto|intros (k & E & I); now injection E as <-|intros []|intros (k & E & _); discriminate]|].
  split; [apply ordered_first|]. split; [apply ordered_first|].
  intros a x b y c E V. set (l := lifetimes_first (gn_params impl ++ gn_params fn)) in E.
  assert (H : forall l0 a x b y c, map (fun x : gparam * list str => (fst x, @nil str)) l0 = a ++ x :: b ++ y :: c -> exists a' x' b' y' c', l0 = a' ++ x' :: b' ++ y' :: c' /\ fst x' = fst x /\ fst y' = fst y).
  { clear. intros l0 a x b y c E. apply map_eq_app in E as (a' & r & -> & _ & E). apply map_eq_cons in E as (x' & r' & -> & Ex & E).
    apply map_eq_app in E as (b' & r2 & -> & _ & E). apply map_eq_cons in E as (y' & c' & -> & Ey & _). exists a', x', b', y', c'. subst x y. auto. }
  apply H in E as (a' & x' & b' & y' & c' & E & Ex & Ey). rewrite <- Ex in V. rewrite <- Ey. exact (ordered_first _ _ _ _ _ _ E V).
Qed.
Print Assumptions C92_bounds_exact.

Example C92_example :
  it_params (read_item_generics ex_impl ex_fn) =
    [(PLifetime (lit "'a"), []); (PLifetime (lit "'b"), [lit "'a"]); (PType (lit "T"), [lit "Clone"; lit "serde::de::DeserializeOwned"]); (PType (lit "U"), [lit "serde::de::DeserializeOwned"])] /\
  it_where (read_item_generics ex_impl ex_fn) = [lit "T: Debug"; lit "U: From<T>"] /\
  struct_item ex_impl ex_fn (Some [lit "T: Copy"]) =
    {| it_params := [(PLifetime (lit "'a"), []); (PLifetime (lit "'b"), []); (PType (lit "T"), []); (PType (lit "U"), [])]; it_where := [lit "T: Copy"] |}.
Proof. repeat split. Qed.
