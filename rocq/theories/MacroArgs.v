(** The arguments of a target: what is stored for each, how it is computed from the
    argument and how the argument is rebuilt (macro/src/lib.rs:272-282, 401-436, 840-1010,
    1107-1123, 1184-1189, macro/src/pat_utils.rs). *)
From Coq Require Import List Ascii String Bool Arith NArith Lia.
From Verif Require Import Base Decimal Syntax SelfTy.
Import ListNotations.
Local Open Scope nat_scope.

(** ** Generated expressions *)

(** The Rust expressions that occur in the generated code.  [expr] of the source is one of
    [EVar], [EDeref (EVar ..)], [EDeref (EDeref ..)], ... *)
Inductive expr :=
  | EVar (x : str)                           (* [x] or [self] *)
  | EField (x : str)                         (* [args.x] *)
  | EDeref (e : expr)                        (* [( *e)] *)
  | ERef (mut : bool) (e : expr)             (* [&e], [&mut e] *)
  | EClone (e : expr)                        (* [e.clone()] *)
  | ECloneAs (t : rty) (e : expr)            (* [<t as Clone>::clone(&e)] *)
  | EToOwned (e : expr)                      (* [e.to_owned()] *)
  | EToVec (e : expr)                        (* [e.to_vec()] *)
  | EAsStr (mut : bool) (e : expr)           (* [e.as_str()], [e.as_mut_str()] *)
  | EAsSlice (mut : bool) (e : expr)         (* [e.as_slice()], [e.as_mut_slice()] *)
  | EFromRef (to from : rty) (e : expr)      (* [<to as test_fuzz::FromRef::<from>>::from_ref(&e)] *)
  | EInto (e : expr).                        (* [<_ as test_fuzz::Into::<_>>::into(e)] *)

(** ** Conversions *)

(** macro/src/lib.rs:38 [Conversions].  A [BTreeMap] whose keys are compared by their
    printed form; taken to be compared by their tokens. *)
Definition table := list (list tok * (rty * bool)).

Fixpoint tget (c : table) (k : list tok) : option rty :=
  match c with
  | [] => None
  | (k', (v, _)) :: c => if toks_eqb k' k then Some v else tget c k
  end.
(** [BTreeMap::insert]; the order of the entries does not matter here. *)
Fixpoint tinsert (c : table) (k : list tok) (v : rty) : table :=
  match c with
  | [] => [(k, (v, false))]
  | (k', e) :: c => if toks_eqb k' k then (k', (v, false)) :: c else (k', e) :: tinsert c k v
  end.
Definition tuse (c : table) (k : list tok) : table :=
  map (fun e => if toks_eqb (fst e) k then (fst e, (fst (snd e), true)) else e) c.

(** macro/src/lib.rs:272-282: the table made from the [convert] options, each parsed to a
    list of types; a list of any other length than two panics. *)
Fixpoint make_table (opts : list (list rty)) (c : table) : outcome table :=
  match opts with
  | [] => Ret c
  | [key; value] :: opts => make_table opts (tinsert c (toks key) value)
  | _ :: _ => Panic
  end.

(** ** Mapping one type *)

(** macro/src/type_utils.rs:149-172 [match_type_path(path, &["str"]) == Some(PathArguments::None)]. *)
Definition is_str (t : rty) : bool :=
  match t with
  | RPath None _ [(s, ANone)] => str_eqb s (lit "str")
  | _ => false
  end.

(** Type of the stored field, expression that computes it, expression that rebuilds the argument. *)
Definition mapped := (rty * expr * expr)%type.
Definition re_ref (m : bool) (r : mapped) : mapped := let '(t, ser, de) := r in (t, ser, ERef m de).

(** macro/src/lib.rs:928-1010 [map_typed_arg], [map_path_arg], [map_ref_arg].  The candidates
    are listed in the order of insertion. *)
Fixpoint map_typed_arg (c : table) (cands : list (list tok)) (x : str) (e : expr) (t : rty) : table * list (list tok) * mapped :=
  let cands := cands ++ [toks t] in
  match tget c (toks t) with
  | Some to => (tuse c (toks t), cands, (to, EFromRef to t e, EInto (EField x)))
  | None =>
      match t with
      | RRef _ m t' =>
          match t' with
          | RPath _ _ _ =>
              if is_str t' then (c, cands, (rname "String", EToOwned e, EAsStr m (EField x)))
              else (c, cands, re_ref m (t', EClone (EDeref e), EField x))
          | RSlice t'' => (c, cands, (rapp "Vec" [t''], EToVec e, EAsSlice m (EField x)))
          | _ => let '(c, cands, r) := map_typed_arg c cands x (EDeref e) t' in (c, cands, re_ref m r)
          end
      | _ => (c, cands, (t, EClone e, EField x))
      end
  end.

(** ** Patterns and parameters *)

(** [syn::Pat]: an identifier (with an optional pattern after [@]) or any other pattern with
    its parts; [_] has none. *)
Inductive pat := PatIdent (x : str) (sub : option pat) | PatOther (subs : list pat).

(** macro/src/pat_utils.rs [pat_idents]. *)
Fixpoint pat_idents (p : pat) : list str :=
  match p with
  | PatIdent x sub => x :: match sub with Some p => pat_idents p | None => [] end
  | PatOther ps => List.concat (map pat_idents ps)
  end.

(** [syn::ReceiverKind]. *)
Inductive receiver := ByValue | ByRef (lt : option str) (mut : bool) | ByType (t : rty).

(** [syn::FnArg] with the number of its attributes; the [bool] of a receiver is the
    [mut] of [mut self]. *)
Inductive fn_arg := Receiver (attrs : nat) (mut : bool) (kind : receiver) | Typed (attrs : nat) (p : pat) (t : rty).

(** macro/src/lib.rs:1184-1189 [anonymous_ident] for the value [n] of the counter, which is
    shared by all expansions in the process and is 32 bits wide. *)
Definition anonymous (n : N) : str := lit "_" ++ dec (n mod 2 ^ 32)%N.

(** What is produced for one argument: attributes, name of the field, [Debug] name,
    variable it is computed from, declared type, and [mapped]. *)
Record mapped_arg := { m_attrs : nat; m_ident : str; m_label : str; m_type : rty; m_mapped : mapped }.

(** State of an expansion: conversions, candidates, values of the counter not yet drawn.
    The values an expansion draws are those that the shared counter has at those moments. *)
Definition state := (table * list (list tok) * list N)%type.

Definition draw (draws : list N) : N * list N := match draws with [] => (0%N, []) | n :: l => (n, l) end.

(** macro/src/lib.rs:908-923: the choice between attributes and conversions. *)
Definition finish (s : state) (attrs : nat) (x label : str) (e : expr) (t : rty) : state * mapped_arg :=
  let '(c, cands, draws) := s in
  match attrs with
  | 0 => let '(c, cands, r) := map_typed_arg c cands x e t in
         ((c, cands, draws), {| m_attrs := 0; m_ident := x; m_label := label; m_type := t; m_mapped := r |})
  | _ => (s, {| m_attrs := attrs; m_ident := x; m_label := label; m_type := t; m_mapped := (t, ECloneAs t e, EField x) |})
  end.

(** macro/src/lib.rs:873-889: the type given to a receiver: the tokens of [&], lifetime,
    [mut] and the self type, parsed again.  Tokens [mut Foo] are no type, and neither are
    none at all. *)
Definition receiver_type (mut : bool) (kind : receiver) (self_ty : option rty) : outcome rty :=
  match mut, self_ty with
  | true, _ | _, None => Panic
  | false, Some s => Ret (match kind with ByRef lt m => RRef lt m s | _ => s end)
  end.

(** macro/src/lib.rs:865-926 [map_arg]. *)
Definition map_arg (trait_path : option rpath) (self_ty : option rty) (s : state) (a : fn_arg) : outcome (state * mapped_arg) :=
  let '(c, cands, draws) := s in
  match a with
  | Receiver attrs mut kind =>
      let (n, draws) := draw draws in
      bind (receiver_type mut kind self_ty) (fun t => Ret (finish (c, cands, draws) attrs (anonymous n) (lit "self") (EVar (lit "self")) t))
  | Typed attrs p t =>
      bind (match pat_idents p with
            | [] => let (n, draws) := draw draws in Ret (anonymous n, draws)
            | [x] => Ret (x, draws)
            | _ => Panic
            end) (fun xd =>
      bind (match self_ty with Some self_ty => expand_self trait_path self_ty t | None => Ret t end) (fun t =>
      Ret (finish (c, cands, snd xd) attrs (fst xd) (fst xd) (EVar (fst xd)) t)))
  end.

(** macro/src/lib.rs:840-863 [map_args]. *)
Fixpoint map_args (trait_path : option rpath) (self_ty : option rty) (s : state) (l : list fn_arg) : outcome (state * list mapped_arg) :=
  match l with
  | [] => Ret (s, [])
  | a :: l =>
      bind (map_arg trait_path self_ty s a) (fun sr =>
      bind (map_args trait_path self_ty (fst sr) l) (fun srs =>
      Ret (fst srs, snd sr :: snd srs)))
  end.

(** macro/src/lib.rs:398-420: all conversions must have been used. *)
Definition all_used (c : table) : bool := forallb (fun e => snd (snd e)) c.
Definition expand_args (trait_path : option rpath) (self_ty : option rty) (opts : list (list rty)) (draws : list N) (l : list fn_arg)
  : outcome (list mapped_arg) :=
  bind (make_table opts []) (fun c =>
  bind (map_args trait_path self_ty (c, [], draws) l) (fun srs =>
  if all_used (fst (fst (fst srs))) then Ret (snd srs) else Panic)).

(** macro/src/lib.rs:1107-1123 [type_generic_phantom_idents_and_types] and 421-425: the names
    of the fields; the phantom names are drawn before those of the arguments. *)
Definition phantom_count (ps : list gparam) : nat := List.length (List.filter (fun p => match p with PConst _ => false | _ => true end) ps).
Definition field_names (ps : list gparam) (trait_path : option rpath) (self_ty : option rty) (opts : list (list rty)) (draws : list N) (l : list fn_arg)
  : outcome (list str) :=
  let n := phantom_count ps in
  bind (expand_args trait_path self_ty opts (skipn n draws) l) (fun rs =>
  Ret (map m_ident rs ++ map anonymous (firstn n draws))).

(** ** Meaning of the expressions *)

(** Types as far as the expressions look at them; lifetimes and parentheses are dropped. *)
Inductive ty := TRef (mut : bool) (t : ty) | TStr | TSlice (t : rty) | TOther (t : rty).

Fixpoint sem (t : rty) : ty :=
  match t with
  | RRef _ m t => TRef m (sem t)
  | RSlice t => TSlice t
  | RParen t => sem t
  | _ => if is_str t then TStr else TOther t
  end.

(** Values.  What is not a reference, string, slice or vector is opaque. *)
Inductive val := VRef (v : val) | VStr (s : str) | VSlice (l : list val) | VString (s : str) | VVec (l : list val) | VOther (n : nat).

(** What a program defines: which types are [Clone], and the [FromRef] and [Into]
    implementations.  Cloning gives an equal value. *)
Record world := {
  clonable : rty -> Prop;
  from_ref : rty -> rty -> val -> option val;   (* target, source *)
  into : ty -> ty -> val -> option val          (* source, target *)
}.

(** Evaluation to a value of the given type.  [vars]: the parameters of the function;
    [fields]: the fields of [args].  Method calls follow the rules of Rust's method lookup
    for the receivers that occur: [clone] on a reference to a [Clone] type clones what it refers to. *)
Section Eval.
  Variable w : world.
  Variable vars : str -> option (ty * val).
  Variable fields : str -> option (rty * val).
  Inductive ev : expr -> ty -> val -> Prop :=
    | ev_var x t v : vars x = Some (t, v) -> ev (EVar x) t v
    | ev_field x t v : fields x = Some (t, v) -> ev (EField x) (sem t) v
    | ev_deref e m t v : ev e (TRef m t) (VRef v) -> ev (EDeref e) t v
    | ev_ref m e t v : ev e t v -> ev (ERef m e) (TRef m t) (VRef v)
    | ev_clone e t v : ev e (TOther t) v -> clonable w t -> ev (EClone e) (TOther t) v
    | ev_clone_ref e m t v : ev e (TRef m (TOther t)) (VRef v) -> clonable w t -> ev (EClone e) (TOther t) v
    | ev_clone_as t e v : ev e (sem t) v -> (clonable w t \/ exists t', sem t = TRef false t') -> ev (ECloneAs t e) (sem t) v
    | ev_to_owned e m s : ev e (TRef m TStr) (VRef (VStr s)) -> ev (EToOwned e) (TOther (rname "String")) (VString s)
    | ev_to_vec e m t l : ev e (TRef m (TSlice t)) (VRef (VSlice l)) -> clonable w t -> ev (EToVec e) (TOther (rapp "Vec" [t])) (VVec l)
    | ev_as_str m e s : ev e (TOther (rname "String")) (VString s) -> ev (EAsStr m e) (TRef m TStr) (VRef (VStr s))
    | ev_as_slice m e t l : ev e (TOther (rapp "Vec" [t])) (VVec l) -> ev (EAsSlice m e) (TRef m (TSlice t)) (VRef (VSlice l))
    | ev_from_ref to t e v v' : ev e (sem t) v -> from_ref w to t v = Some v' -> ev (EFromRef to t e) (sem to) v'
    | ev_into e u t v v' : ev e u v -> into w u t v = Some v' -> ev (EInto e) t v'.
End Eval.

(** Values of a type. *)
Fixpoint of_type (v : val) (t : ty) : Prop :=
  match t with
  | TRef _ t => match v with VRef v => of_type v t | _ => False end
  | TStr => match v with VStr _ => True | _ => False end
  | TSlice _ => match v with VSlice _ => True | _ => False end
  | TOther _ => match v with VOther _ | VString _ | VVec _ => True | _ => False end
  end.

(** Every value of type [t] survives the conversion to [to] and back. *)
Definition converts (w : world) (to t : rty) : Prop :=
  forall v, of_type v (sem t) -> exists v', from_ref w to t v = Some v' /\ into w (sem to) (sem t) v' = Some v.

(** The arguments for which the README promises support: convertible, or any number of
    references to a [str], a slice, or a [Clone] type that is no reference itself. *)
Inductive storable (w : world) (conv : list tok -> option rty) : rty -> Prop :=
  | st_convert t to : conv (toks t) = Some to -> converts w to t -> storable w conv t
  | st_clone t : conv (toks t) = None -> clonable w t -> sem t = TOther t -> storable w conv t
  | st_str lt m t : conv (toks (RRef lt m t)) = None -> is_str t = true -> storable w conv (RRef lt m t)
  | st_slice lt m t : conv (toks (RRef lt m (RSlice t))) = None -> clonable w t -> storable w conv (RRef lt m (RSlice t))
  | st_ref_path lt m q lead segs : conv (toks (RRef lt m (RPath q lead segs))) = None -> is_str (RPath q lead segs) = false ->
      clonable w (RPath q lead segs) -> storable w conv (RRef lt m (RPath q lead segs))
  | st_ref lt m t : conv (toks (RRef lt m t)) = None -> storable w conv t ->
      (forall q lead segs, t <> RPath q lead segs) -> (forall t', t <> RSlice t') -> storable w conv (RRef lt m t).

(** ** Proofs *)

Lemma sem_ref_other lt m t t' : sem (RRef lt m t) = TOther t' -> False.
Proof. discriminate. Qed.

Lemma tget_tuse c k k' : tget (tuse c k) k' = tget c k'.
Proof.
  induction c as [|[a [v u]] c IH]; [reflexivity|]. cbn [tuse map fst snd]. fold (tuse c k).
  destruct (toks_eqb a k); cbn [tget]; rewrite IH; reflexivity.
Qed.

Lemma map_typed_get c cands x e t k : tget (fst (fst (map_typed_arg c cands x e t))) k = tget c k.
Proof.
  revert c cands e. induction t; intros c cands e; cbn [map_typed_arg]; destruct (tget c (toks _)); cbn [fst]; try (apply tget_tuse); try reflexivity.
  destruct t; try reflexivity; try (destruct (is_str _); reflexivity);
    match goal with |- context [map_typed_arg ?c ?l ?x ?e ?t] => specialize (IHt c l e); destruct (map_typed_arg c l x e t) as [[? ?] [[? ?] ?]] end; exact IHt.
Qed.

Lemma map_typed_ev w vars : forall t c cands x e v,
  storable w (tget c) t -> of_type v (sem t) ->
  ev w vars (fun _ => None) e (sem t) v ->
  forall stored ser de, snd (map_typed_arg c cands x e t) = (stored, ser, de) ->
  exists v', ev w vars (fun _ => None) ser (sem stored) v' /\
    forall fields vars', fields x = Some (stored, v') -> ev w vars' fields de (sem t) v.
Proof.
  intros t c cands x e v S. revert cands e v. induction S as [t to C K|t C K T|lt m t C I|lt m t C K|lt m q lead segs C I K|lt m t C S IH N1 N2]; intros cands e v V E stored ser de M.
  - assert (X : snd (map_typed_arg c cands x e t) = (to, EFromRef to t e, EInto (EField x))) by (destruct t; cbn [map_typed_arg]; rewrite C; reflexivity).
    rewrite X in M. injection M as <- <- <-. destruct (K v V) as (v' & F & B). exists v'. split; [econstructor; eauto|].
    intros fields vars' L. econstructor; [constructor; exact L|exact B].
  - assert (X : snd (map_typed_arg c cands x e t) = (t, EClone e, EField x)).
    { destruct t; cbn [map_typed_arg]; rewrite C; try reflexivity. discriminate T. }
    rewrite X in M. injection M as <- <- <-. exists v. split; [rewrite T; constructor; [rewrite T in E; exact E|exact K]|]. intros fields vars' L. now constructor.
  - assert (X : snd (map_typed_arg c cands x e (RRef lt m t)) = (rname "String", EToOwned e, EAsStr m (EField x))).
    { cbn [map_typed_arg]. rewrite C. destruct t; try discriminate I. rewrite I. reflexivity. }
    rewrite X in M. injection M as <- <- <-.
    assert (T : sem t = TStr) by (destruct t; try discriminate I; cbn [sem]; now rewrite I).
    cbn [sem] in V, E. rewrite T in V, E. destruct v as [v| | | | |]; try (now destruct V). destruct v; try (now destruct V).
    exists (VString s). split; [change (sem (rname "String")) with (TOther (rname "String")); econstructor; exact E|].
    intros fields vars' L. cbn [sem]. rewrite T. constructor. change (TOther (rname "String")) with (sem (rname "String")). now constructor.
  - assert (X : snd (map_typed_arg c cands x e (RRef lt m (RSlice t))) = (rapp "Vec" [t], EToVec e, EAsSlice m (EField x))).
    { cbn [map_typed_arg]. rewrite C. reflexivity. }
    rewrite X in M. injection M as <- <- <-. cbn [sem] in V, E. destruct v as [v| | | | |]; try (now destruct V). destruct v; try (now destruct V).
    exists (VVec l). split; [change (sem (rapp "Vec" [t])) with (TOther (rapp "Vec" [t])); econstructor; eauto|].
    intros fields vars' L. cbn [sem]. constructor. change (TOther (rapp "Vec" [t])) with (sem (rapp "Vec" [t])). now constructor.
  - assert (X : snd (map_typed_arg c cands x e (RRef lt m (RPath q lead segs))) = (RPath q lead segs, EClone (EDeref e), ERef m (EField x))).
    { cbn [map_typed_arg]. rewrite C, I. reflexivity. }
    rewrite X in M. injection M as <- <- <-.
    assert (T : sem (RPath q lead segs) = TOther (RPath q lead segs)) by (cbn [sem]; now rewrite I).
    change (sem (RRef lt m (RPath q lead segs))) with (TRef m (sem (RPath q lead segs))) in *. rewrite T in *.
    destruct v as [v| | | | |]; try (now destruct V). exists v. split; [constructor; [econstructor; exact E|exact K]|].
    intros fields vars' L. constructor. rewrite <- T. now constructor.
  - assert (X : exists cands', snd (map_typed_arg c cands x e (RRef lt m t)) = re_ref m (snd (map_typed_arg c cands' x (EDeref e) t))).
    { exists (cands ++ [toks (RRef lt m t)]). cbn [map_typed_arg]. rewrite C.
      destruct t; try (exfalso; now eapply N1); try (exfalso; now eapply N2);
        match goal with |- context [map_typed_arg ?c ?l ?x ?e ?t] => destruct (map_typed_arg c l x e t) as [[? ?] r]; reflexivity end. }
    destruct X as [cands' X]. rewrite X in M. cbn [sem] in V, E. destruct v as [v| | | | |]; try (now destruct V).
    destruct (snd (map_typed_arg c cands' x (EDeref e) t)) as [[st se] d] eqn:R. cbn [re_ref] in M. injection M as <- <- <-.
    destruct (IH cands' (EDeref e) v V ltac:(econstructor; exact E) st se d R) as (v' & A & B). exists v'. split; [exact A|].
    intros fields vars' L. cbn [sem]. constructor. now apply B.
Qed.

(** *** Uniqueness of types and values *)

Fixpoint no_into (e : expr) : Prop :=
  match e with
  | EVar _ | EField _ => True
  | EInto _ => False
  | EDeref e | ERef _ e | EClone e | ECloneAs _ e | EToOwned e | EToVec e | EAsStr _ e | EAsSlice _ e | EFromRef _ _ e => no_into e
  end.

Lemma ev_unique w vars fields e : no_into e -> forall t v t' v', ev w vars fields e t v -> ev w vars fields e t' v' -> t = t' /\ v = v'.
Proof.
  induction e; cbn [no_into]; intros N a b a' b' H H'; try (now destruct N).
  - inversion H; inversion H'; subst. split; congruence.
  - inversion H; inversion H'; subst. split; congruence.
  - inversion H; inversion H'; subst. destruct (IHe N _ _ _ _ H1 H5) as [A B]. split; congruence.
  - inversion H; inversion H'; subst. destruct (IHe N _ _ _ _ H4 H9) as [A B]. split; congruence.
  - inversion H; inversion H'; subst;
      match goal with A : ev _ _ _ e _ _, B : ev _ _ _ e _ _ |- _ => destruct (IHe N _ _ _ _ A B) as [X Y] end; unfold rapp, rname in *; cbn [map] in *; split; congruence.
  - inversion H; inversion H'; subst;
      match goal with A : ev _ _ _ e _ _, B : ev _ _ _ e _ _ |- _ => destruct (IHe N _ _ _ _ A B) as [X Y] end; unfold rapp, rname in *; cbn [map] in *; split; congruence.
  - inversion H; inversion H'; subst;
      match goal with A : ev _ _ _ e _ _, B : ev _ _ _ e _ _ |- _ => destruct (IHe N _ _ _ _ A B) as [X Y] end; unfold rapp, rname in *; cbn [map] in *; split; congruence.
  - inversion H; inversion H'; subst;
      match goal with A : ev _ _ _ e _ _, B : ev _ _ _ e _ _ |- _ => destruct (IHe N _ _ _ _ A B) as [X Y] end; unfold rapp, rname in *; cbn [map] in *; split; congruence.
  - inversion H; inversion H'; subst;
      match goal with A : ev _ _ _ e _ _, B : ev _ _ _ e _ _ |- _ => destruct (IHe N _ _ _ _ A B) as [X Y] end; unfold rapp, rname in *; cbn [map] in *; split; congruence.
  - inversion H; inversion H'; subst;
      match goal with A : ev _ _ _ e _ _, B : ev _ _ _ e _ _ |- _ => destruct (IHe N _ _ _ _ A B) as [X Y] end; unfold rapp, rname in *; cbn [map] in *; split; congruence.
  - inversion H; inversion H'; subst;
      match goal with A : ev _ _ _ e _ _, B : ev _ _ _ e _ _ |- _ => destruct (IHe N _ _ _ _ A B) as [X Y] end; unfold rapp, rname in *; cbn [map] in *; split; congruence.
Qed.

(** The rebuilding expressions: references to a field, possibly converted. *)
Fixpoint rebuilds (e : expr) : Prop :=
  match e with
  | EInto (EField _) => True
  | ERef _ e => rebuilds e
  | EField _ | EAsStr _ (EField _) | EAsSlice _ (EField _) => True
  | _ => False
  end.

Lemma rebuilds_unique w vars fields e : rebuilds e -> forall t v v', ev w vars fields e t v -> ev w vars fields e t v' -> v = v'.
Proof.
  induction e; cbn [rebuilds]; intros N a b b' H H'; try (now destruct N).
  - eapply (ev_unique w vars fields (EField x)); eauto.
  - inversion H; inversion H'; subst. f_equal. eapply IHe; eauto. congruence.
  - destruct e; try (now destruct N). eapply (ev_unique w vars fields (EAsStr mut (EField x))); eauto.
  - destruct e; try (now destruct N). eapply (ev_unique w vars fields (EAsSlice mut (EField x))); eauto.
  - destruct e; try (now destruct N). inversion H; inversion H'; subst.
    match goal with A : ev _ _ _ (EField x) _ _, B : ev _ _ _ (EField x) _ _ |- _ => destruct (ev_unique w vars fields (EField x) I _ _ _ _ A B) as [X Y] end.
    congruence.
Qed.

Lemma map_typed_shape c : forall t cands x e, no_into e ->
  let '(_, ser, de) := snd (map_typed_arg c cands x e t) in no_into ser /\ rebuilds de.
Proof.
  induction t; intros cands x e N; cbn [map_typed_arg]; destruct (tget c (toks _)); cbn [snd no_into rebuilds]; auto.
  destruct t; cbn [snd no_into rebuilds re_ref]; auto; try (destruct (is_str _); cbn [snd no_into rebuilds re_ref]; now auto);
    match goal with |- context [map_typed_arg ?c ?l ?x ?e ?t] => specialize (IHt l x e N); destruct (map_typed_arg c l x e t) as [[? ?] [[? ?] ?]] end;
    cbn [snd] in IHt; cbn [snd re_ref rebuilds]; exact IHt.
Qed.
