(** C86: what the generated [Args] stores and what the harness calls. *)
From Coq Require Import List Ascii String Bool Arith NArith Lia.
From Verif Require Import Base Targets Dirs Syntax SelfTy Turbofish MacroArgs MacroMod PropsMacroArgs PropsMacroMod.
Import ListNotations.
Local Open Scope nat_scope.

(** ** Specification *)

(** The type stored for an argument of type [t]: that of its conversion if it has one; for
    [&str] a [String], for [&[T]] a [Vec<T>], for a reference to anything else what is stored
    for that, otherwise the type itself.  Behind a reference to a named type no conversion
    is looked for. *)
Inductive stores (conv : list tok -> option rty) : rty -> rty -> Prop :=
  | so_convert t to : conv (toks t) = Some to -> stores conv t to
  | so_str lt m lead : conv (toks (RRef lt m (RPath None lead [(lit "str", ANone)]))) = None ->
      stores conv (RRef lt m (RPath None lead [(lit "str", ANone)])) (RPath None false [(lit "String", ANone)])
  | so_slice lt m t : conv (toks (RRef lt m (RSlice t))) = None ->
      stores conv (RRef lt m (RSlice t)) (RPath None false [(lit "Vec", AAngle false [GType t])])
  | so_named lt m q lead segs : conv (toks (RRef lt m (RPath q lead segs))) = None -> (q = None -> segs <> [(lit "str", ANone)]) ->
      stores conv (RRef lt m (RPath q lead segs)) (RPath q lead segs)
  | so_ref lt m t s : conv (toks (RRef lt m t)) = None -> (forall q lead segs, t <> RPath q lead segs) -> (forall t', t <> RSlice t') ->
      stores conv t s -> stores conv (RRef lt m t) s
  | so_same t : conv (toks t) = None -> (forall lt m t', t <> RRef lt m t') -> stores conv t t.

(** The field for an argument: an argument with attributes is stored as it is; the name is
    that of the variable, if the argument has one other than [self]. *)
Definition field_for (conv : list tok -> option rty) (tp : option rpath) (self : option rty) (a : fn_arg) (fld : str * rty) : Prop :=
  (exists t, considered tp self a t /\ match attributes a with 0 => stores conv t (snd fld) | _ => snd fld = t end) /\
  (forall n x sub t, a = Typed n (PatIdent x sub) t -> fst fld = x).

(** Fields that mark the generic parameters as used: for [T] one of type
    [std::marker::PhantomData<T>], for ['a] one of type [std::marker::PhantomData<&'a ()>],
    for constants none. *)
Inductive markers : list gparam -> list (str * rty) -> Prop :=
  | mk_nil : markers [] []
  | mk_type x ps n t l : toks t = [tk "std"; tk ":"; tk ":"; tk "marker"; tk ":"; tk ":"; tk "PhantomData"; tk "<"; Tk x; tk ">"] ->
      markers ps l -> markers (PType x :: ps) ((n, t) :: l)
  | mk_lifetime a ps n t l : toks t = [tk "std"; tk ":"; tk ":"; tk "marker"; tk ":"; tk ":"; tk "PhantomData"; tk "<"; tk "&"; Tk a; Grp "(" []; tk ">"] ->
      markers ps l -> markers (PLifetime a :: ps) ((n, t) :: l)
  | mk_const x ps l : markers ps l -> markers (PConst x :: ps) l.

(** ** Proofs *)

Lemma is_str_exact t : is_str t = true <-> exists lead, t = RPath None lead [(lit "str", ANone)].
Proof.
  split.
  - intros E. destruct t as [[?|] lead [|[x [| |]] [|]]| | | | | | | | |]; try discriminate E. cbn [is_str] in E. apply str_eqb_eq in E as ->. now exists lead.
  - intros [lead ->]. reflexivity.
Qed.

Lemma map_typed_stores conv : forall t c cands x e, (forall k, tget c k = conv k) -> stores conv t (fst (fst (snd (map_typed_arg c cands x e t)))).
Proof.
  induction t; intros c cands x e G; cbn [map_typed_arg]; rewrite G;
    match goal with |- context [conv (toks ?t)] => destruct (conv (toks t)) as [to|] eqn:T; [cbn [fst snd]; now constructor|] end;
    try (cbn [fst snd]; apply so_same; [exact T|discriminate]).
  assert (Deep : (forall q lead segs, t <> RPath q lead segs) -> (forall t', t <> RSlice t') ->
     stores conv (RRef lt mut t) (fst (fst (snd (let '(c, cands, r) := map_typed_arg c (cands ++ [toks (RRef lt mut t)]) x (EDeref e) t in (c, cands, re_ref mut r)))))).
  { intros N1 N2. apply so_ref; [exact T|exact N1|exact N2|]. specialize (IHt c (cands ++ [toks (RRef lt mut t)]) x (EDeref e) G).
    destruct (map_typed_arg _ _ _ _ t) as [[c' cands'] [[s se] d]]. exact IHt. }
  destruct t; try (apply Deep; discriminate).
  - destruct (is_str (RPath qself lead segs)) eqn:I; cbn [fst snd re_ref].
    + apply is_str_exact in I as [l I]. injection I as -> -> ->. now apply so_str.
    + apply so_named; [exact T|]. intros -> ->. cbn [is_str] in I. rewrite str_eqb_same in I. discriminate.
  - cbn [fst snd]. now apply so_slice.
Qed.

Lemma map_arg_field conv tp self c cands draws a s r : (forall k, tget c k = conv k) -> map_arg tp self (c, cands, draws) a = Ret (s, r) ->
  (forall k, tget (fst (fst s)) k = conv k) /\ field_for conv tp self a (m_ident r, fst (fst (m_mapped r))).
Proof.
  intros G M. unfold map_arg in M.
  assert (F : forall n x lab e t, finish (c, cands, snd x) n (fst x) lab e t = (s, r) -> attributes a = n -> considered tp self a t ->
     (forall n x' sub t, a = Typed n (PatIdent x' sub) t -> fst x = x') ->
     (forall k, tget (fst (fst s)) k = conv k) /\ field_for conv tp self a (m_ident r, fst (fst (m_mapped r)))).
  { intros n x lab e t F A C X. destruct (finish_spec _ _ _ _ _ _ _ _ _ _ F) as (T & _ & _ & I & _ & _ & Mm).
    split; [intros k; now rewrite T|]. split.
    - exists t. split; [exact C|]. rewrite A, Mm. destruct n; cbn [snd fst]; [apply map_typed_stores; exact G|reflexivity].
    - cbn [fst]. rewrite I. exact X. }
  destruct a as [n mut kind|n p t].
  - destruct (draw draws) as [d ds]. unfold receiver_type in M. destruct mut, self as [s0|]; try discriminate. cbn [bind] in M. apply ret_inj in M.
    apply (F n (anonymous d, ds) _ _ _ M eq_refl); [|discriminate].
    destruct kind; constructor; try reflexivity; discriminate.
  - apply bind_ret in M as (xd & P & M). apply bind_ret in M as (t1 & T & M). apply ret_inj in M.
    assert (E : expands tp self t t1) by (destruct self; [exact T|injection T as ->; reflexivity]).
    apply (F n xd _ _ _ M eq_refl); [now constructor|]. intros n' x sub t' Q. injection Q as -> -> ->. cbn [pat_idents] in P.
    destruct sub as [sub|]; [destruct (pat_idents sub); [|discriminate]|]; apply ret_inj in P as <-; reflexivity.
Qed.

Lemma map_args_fields conv tp self : forall l c cands draws s rs, (forall k, tget c k = conv k) -> map_args tp self (c, cands, draws) l = Ret (s, rs) ->
  Forall2 (field_for conv tp self) l (map (fun r => (m_ident r, fst (fst (m_mapped r)))) rs).
Proof.
  induction l as [|a l IH]; intros c cands draws s rs G M.
  - injection M as <- <-. constructor.
  - cbn [map_args] in M. apply bind_ret in M as ([s1 r] & M1 & M). apply bind_ret in M as ([s2 rs'] & M2 & M). cbn [fst snd] in M, M2. injection M as <- <-.
    destruct (map_arg_field conv _ _ _ _ _ _ _ _ G M1) as (G1 & F1). destruct s1 as [[c1 cands1] draws1]. cbn [map]. constructor; [exact F1|]. eapply IH; eauto.
Qed.

Lemma same_length A B (P : A -> B -> Prop) l l' : Forall2 P l l' -> List.length l = List.length l'.
Proof. induction 1; cbn; congruence. Qed.

Lemma markers_made : forall ps names, phantom_count ps <= List.length names ->
  markers ps (combine (firstn (phantom_count ps) names) (map phantom_type (phantom_params ps))).
Proof.
  unfold phantom_count, phantom_params. induction ps as [|p ps IH]; intros names L; [constructor|]. destruct p; cbn [List.filter List.length] in *.
  - destruct names as [|n names]; [cbn in L; lia|]. cbn [firstn map combine]. apply mk_lifetime; [reflexivity|]. apply IH. cbn in L. lia.
  - destruct names as [|n names]; [cbn in L; lia|]. cbn [firstn map combine]. apply mk_type; [reflexivity|]. apply IH. cbn in L. lia.
  - apply mk_const. now apply IH.
Qed.

(** The names drawn for the markers suffice if there is one for each parameter. *)
Lemma count_le ps : phantom_count ps <= List.length ps.
Proof. unfold phantom_count. induction ps as [|[] ps IH]; cbn; lia. Qed.

(** [Args] has a field for each argument and then a marker for each type and lifetime
    parameter of the impl and of the function, in order. *)
Theorem C86_fields :
  forall cf generics tp self o attrs draws f f' ins m,
    map_method_or_fn cf generics tp self o attrs draws f = Ret (f', ins, m) ->
    List.length generics + List.length (f_generics f) <= List.length draws -> o_only_generic_args o = false ->
    exists fields marks, md_fields m = Some (fields ++ marks) /\
      Forall2 (field_for (conversion (o_convert o)) tp self) (f_inputs f) fields /\
      markers (generics ++ f_generics f) marks.
Proof.
  intros cf generics tp self o attrs draws f f' ins m M L O. unfold map_method_or_fn in M. apply bind_ret in M as (c & _ & M). destruct (early _ _ _ _); [discriminate|].
  apply bind_ret in M as (l & _ & M). apply bind_ret in M as (rs & R & M). apply bind_ret in M as (ret & _ & M). apply bind_ret in M as (p & _ & M).
  apply ret_inj in M. apply pair_inj in M as [M Em]. subst m. cbn [md_fields]. rewrite O.
  unfold combine_generics in *. eexists _, _. split; [reflexivity|]. split.
  - unfold expand_args in R. apply bind_ret in R as (c0 & C & R). apply bind_ret in R as ([s rs'] & R1 & R). cbn [fst snd] in R.
    destruct (all_used _); [|discriminate]. apply ret_inj in R as <-. eapply map_args_fields; [|exact R1].
    intros k. rewrite (make_table_get _ _ _ k C). now destruct (conversion _ k).
  - pose proof (markers_made (generics ++ f_generics f) (map anonymous draws)) as K. rewrite map_length, firstn_map in K. apply K.
    pose proof (count_le (generics ++ f_generics f)). rewrite app_length in *. lia.
Qed.
Print Assumptions C86_fields.

(** What is stored for a type is determined by it. *)
Theorem C86_stored_unique :
  forall conv t s s', stores conv t s -> stores conv t s' -> s = s'.
Proof.
  intros conv t s s' H. revert s'. induction H; intros s' K; inversion K; subst; try congruence;
    repeat match goal with
    | H : context [?a <> ?b] |- _ => exfalso; now (eapply H; eauto)
    | H : forall _, ?t _ _ <> _ |- _ => exfalso; now (eapply H; eauto)
    end; auto.
Qed.
Print Assumptions C86_stored_unique.

(** ** The call *)

(** [l] is an argument list [::<...>] for [args]: the lifetimes, then the others, in order. *)
Definition turbofish_of (args : option (list (garg rty))) (l : list tok) : Prop :=
  match args with
  | None => l = []
  | Some args =>
      exists lts others, l = tk ":" :: tk ":" :: tk "<" :: sep [tk ","] (lts ++ others) ++ [tk ">"] /\
        lts = map (gtoks toks) (List.filter (fun a => match a with GLifetime _ => true | _ => false end) args) /\
        others = map (gtoks toks) (List.filter (fun a => match a with GLifetime _ => false | _ => true end) args)
  end.

Lemma args_turbofish (args : option (list (garg rty))) : turbofish_of args (match args with Some l => args_toks l | None => [] end).
Proof.
  destruct args as [l|]; cbn; [|reflexivity]. do 2 eexists. split; [|split; reflexivity].
  unfold args_toks. cbn [atoks app]. unfold colon2. cbn [app]. do 3 f_equal. f_equal. f_equal. unfold lifetimes_first.
  assert (Fl : forall l, map snd (List.filter fst (map (fun a => (is_lifetime a, gtoks toks a)) l)) =
            map (gtoks toks) (List.filter (fun a => match a with GLifetime _ => true | _ => false end) l)).
  { clear. induction l as [|a l IH]; [reflexivity|]. destruct a; cbn; rewrite IH; reflexivity. }
  assert (Fo : forall l, map snd (List.filter (fun a => negb (fst a)) (map (fun a => (is_lifetime a, gtoks toks a)) l)) =
            map (gtoks toks) (List.filter (fun a => match a with GLifetime _ => false | _ => true end) l)).
  { clear. induction l as [|a l IH]; [reflexivity|]. destruct a; cbn; rewrite IH; reflexivity. }
  now rewrite Fl, Fo.
Qed.

(** [p'] is the path [p] with the names in the domain of [m] replaced in the arguments of its
    segments. *)
Definition path_replaced (m : str -> option (garg rty)) (p p' : rpath) : Prop :=
  let ty (p : rpath) := RPath None (fst p) (snd p) in
  same_shape (ty p) (ty p') /\ Forall2 (params_replaced m) (children (ty p)) (children (ty p')).

(** The path of a trait is replaced in the arguments of its segments only: a trait named like a
    parameter keeps its name.  If there is nothing to put there, the macro panics. *)
Theorem C86_trait_path :
  forall (m : list (str * garg rty)) (p : rpath),
    (forall p', map_path_generic_params m p = Ret p' <-> path_replaced (get m) p p') /\
    (map_path_generic_params m p = Panic <-> ~ exists p', path_replaced (get m) p p').
Proof.
  intros m [b l].
  assert (A : sany (subst_rejects m) l = false -> path_replaced (get m) (b, l) (b, smap (subst m) l)).
  { intros E. split; [exact (same_shape_map (subst m) (RPath None b l))|].
    change (RPath None (fst (b, smap (subst m) l)) (snd (b, smap (subst m) l))) with (tmap (subst m) (RPath None b l)). rewrite children_map.
    change (tany (subst_rejects m) (RPath None b l) = false) in E. rewrite tany_children in E. apply existsb_false in E.
    cbn [fst snd]. induction E as [|c k H _ IH]; constructor; [now apply subst_replaced|exact IH]. }
  assert (B : forall p', path_replaced (get m) (b, l) p' -> sany (subst_rejects m) l = false /\ (b, smap (subst m) l) = p').
  { intros [b' l'] [S0 F]. cbn [fst snd] in S0, F.
    assert (G : Forall (fun c => subst_rejects m c = false) (children (RPath None b l)) /\
                map (subst m) (children (RPath None b l)) = children (RPath None b' l')).
    { induction F as [|c c' k k' H _ IH]; [split; [constructor|reflexivity]|]. apply replaced_subst in H as [H1 H2]. destruct IH as [I1 I2].
      split; [now constructor|]. cbn [map]. congruence. }
    destruct G as [G1 G2]. split.
    - change (tany (subst_rejects m) (RPath None b l) = false). rewrite tany_children. now apply existsb_false.
    - assert (E : tmap (subst m) (RPath None b l) = RPath None b' l').
      { apply shape_children; [|now rewrite children_map]. unfold same_shape in *. rewrite <- S0. symmetry. apply same_shape_map. }
      injection E as -> <-. reflexivity. }
  unfold map_path_generic_params. cbn [fst snd]. destruct (sany (subst_rejects m) l) eqn:E.
  - split; [intros p'; split; [discriminate|]|split; [|reflexivity]].
    + intros H. destruct (B _ H). congruence.
    + intros _ [p' H]. destruct (B _ H). congruence.
  - split; [intros p'; split|split; [discriminate|]].
    + intros H. apply ret_inj in H as <-. now apply A.
    + intros H. destruct (B _ H) as [_ <-]. reflexivity.
    + intros H. exfalso. apply H. eexists. now apply A.
Qed.
Print Assumptions C86_trait_path.

(** A function outside of an impl is called through [super]; one in an impl through the self
    type, or through [<Self type as Trait>], both with the arguments of the impl in place of
    its parameters (C27) and written for an expression (C25).  The arguments are those rebuilt
    from the fields (C20), in order. *)
Theorem C86_call :
  forall cf generics tp self o attrs draws f f' ins m,
    map_method_or_fn cf generics tp self o attrs draws f = Ret (f', ins, m) ->
    (exists q fish, turbofish_of (o_generic_args o) fish /\ md_callee m = q ++ tk ":" :: tk ":" :: Tk (f_name f) :: fish /\
      match self with
      | None => q = [tk "super"]
      | Some s =>
          exists map s', generic_params_map generics (match o_impl_generic_args o with Some l => l | None => [] end) = Ret map /\
            params_replaced (get map) s s' /\
            match tp with
            | None => q = type_as_turbofish s'
            | Some p => exists p', path_replaced (get map) p p' /\
                q = [tk "<"] ++ type_as_turbofish s' ++ [tk "as"] ++ path_as_turbofish p' ++ [tk ">"]
            end
      end) /\
    (exists rs used, expand_args tp self (o_convert o) (skipn used draws) (f_inputs f) = Ret rs /\ List.length rs = List.length (f_inputs f) /\
       md_call_args m = map de rs /\
       (o_only_generic_args o = false -> exists marks, md_fields m = Some (map (fun r => (m_ident r, stored_type r)) rs ++ marks))) /\
    match f_output f with
    | None => md_ret m = RTuple []
    | Some t => expands tp self t (md_ret m)
    end.
Proof.
  intros cf generics tp self o attrs draws f f' ins m M. unfold map_method_or_fn in M. apply bind_ret in M as (c & _ & M). destruct (early _ _ _ _); [discriminate|].
  apply bind_ret in M as (l & _ & M). apply bind_ret in M as (rs & R & M). apply bind_ret in M as (ret & O & M). apply bind_ret in M as (p & C & M).
  apply ret_inj in M. apply pair_inj in M as [M Em]. subst m. cbn [md_callee md_call_args md_ret md_fields]. split; [|split].
  - unfold callee in C. pose proof (args_turbofish (o_generic_args o)) as T. destruct self as [s|].
    + apply bind_ret in C as (mp & P & C). apply bind_ret in C as (s' & S' & C). apply bind_ret in C as (q & Q & C). apply ret_inj in C as <-.
      eexists q, _. split; [exact T|]. split; [reflexivity|]. exists mp, s'. split; [exact P|]. split.
      { unfold map_type_generic_params in S'. destruct (subst_rejects mp s) eqn:J; [discriminate|]. apply ret_inj in S' as <-. now apply subst_replaced. }
      destruct tp as [p|].
      * apply bind_ret in Q as (p' & Q & E). apply ret_inj in E as <-. exists p'. split; [now apply C86_trait_path|]. reflexivity.
      * apply ret_inj in Q as <-. reflexivity.
    + apply ret_inj in C as <-. eexists [tk "super"], _. split; [exact T|]. split; reflexivity.
  - exists rs. eexists. split; [exact R|]. split; [|split; [reflexivity|intros ->; eexists; reflexivity]]. unfold expand_args in R. apply bind_ret in R as (c0 & C0 & R). apply bind_ret in R as ([s rs'] & R1 & R). cbn [fst snd] in R.
    destruct (all_used _); [|discriminate]. apply ret_inj in R as <-.
    eapply (map_args_fields (tget c0)) in R1; [|reflexivity]. apply same_length in R1. rewrite map_length in R1. now symmetry.
  - destruct (f_output f) as [t|]; [|now apply ret_inj in O as <-]. unfold expands. destruct self as [s|]; [exact O|now apply ret_inj in O as <-].
Qed.
Print Assumptions C86_call.

(** A method of [impl<'a, T> Foo<'a, T>] for [T = u8], generic itself. *)
Example C86_example :
  let f := {| f_attrs := []; f_vis := []; f_default := false; f_name := lit "f"; f_generics := [PType (lit "U"); PConst (lit "N")];
              f_inputs := [Receiver 0 false (ByRef None false); Typed 0 (PatIdent (lit "s") None) (RRef None false (rname "str"));
                           Typed 1 (PatIdent (lit "u") None) (RRef None false (rname "U")); Typed 0 (PatOther []) (RRef None true (RSlice (rname "Self")))];
              f_output := Some (rname "Self"); f_rest := []; f_stmts := [] |} in
  let foo t := RPath None false [(lit "Foo", AAngle false [GLifetime (lit "'a"); GType (rname t)])] in
  let o := {| o_bounds := None; o_execute_with := None; o_rename := None; o_enable_in_production := false; o_only_generic_args := false; o_no_auto_generate := false; o_convert := [];
              o_impl_generic_args := Some [GType (rname "u8")]; o_generic_args := Some [GType (rname "i8"); GConst [tk "3"]] |} in
  match map_method_or_fn {| cfg_fuzzing := true; cfg_cast_checks := false |} [PLifetime (lit "'a"); PType (lit "T")] None (Some (foo "T"%string)) o []
          [0; 1; 2; 3; 4; 5]%N f with
  | Ret (_, _, m) =>
      option_map (map fst) (md_fields m) = Some [lit "_3"; lit "s"; lit "u"; lit "_4"; lit "_0"; lit "_1"; lit "_2"] /\
      option_map (fun l => map snd (firstn 4 l)) (md_fields m) = Some [foo "T"%string; rname "String"; RRef None false (rname "U"); rapp "Vec" [foo "T"%string]] /\
      md_callee m = map tk ["Foo"; ":"; ":"; "<"; "'a"; ","; "u8"; ">"; ":"; ":"; "f"; ":"; ":"; "<"; "i8"; ","; "3"; ">"]%string /\
      md_ret m = foo "T"%string
  | _ => False
  end.
Proof. vm_compute. auto. Qed.
