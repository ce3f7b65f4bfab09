(** C88: names of the signature keep their meaning in the generated code. *)
From Coq Require Import List Ascii String Bool Arith NArith Lia.
From Verif Require Import Base Decimal Syntax SelfTy MacroArgs MacroMod PropsMacroArgs Hygiene.
Import ListNotations.
Local Open Scope nat_scope.

(** ** Types *)

(** Names the generated module gives a meaning of its own. *)
Definition reserved (x : str) : Prop := In x [lit "Args"; lit "UsingReader"; lit "HasRetTy"].
(** The path goes up at least once, and then on to something. *)
Definition goes_up (segs : list str) : Prop :=
  exists k x rest, segs = repeat (lit "super") (S k) ++ x :: rest /\ x <> lit "super".
Definition safe_from (segs : list str) : Prop :=
  ~ goes_up segs /\ forall x rest, segs = x :: rest -> ~ reserved x.
(** A path that means the same outside and inside. *)
Definition safe (block ps : list str) (lead : bool) (segs : list str) : Prop :=
  lead = true \/
  match segs with
  | [] => True
  | x :: rest =>
      x = lit "crate" \/ (x = lit "self" /\ safe_from rest) \/
      (x <> lit "crate" /\ x <> lit "self" /\ ~ In x block /\ (In x ps \/ safe_from segs))
  end.

Lemma is_in_spec x l : is_in x l = true <-> In x l.
Proof.
  unfold is_in. rewrite existsb_exists. split.
  - intros (y & I & E). apply str_eqb_eq in E as ->. exact I.
  - intros I. exists x. split; [exact I|apply str_eqb_same].
Qed.
Lemma is_in_false x l : is_in x l = false <-> ~ In x l.
Proof. rewrite <- is_in_spec. destruct (is_in x l); split; congruence. Qed.
Lemma eqb_spec' x y : str_eqb x y = false <-> x <> y.
Proof.
  split; [intros E ->; rewrite str_eqb_same in E; discriminate|]. intros N. destruct (str_eqb x y) eqn:E; [|reflexivity].
  apply str_eqb_eq in E. contradiction.
Qed.

Lemma walk_supers p : forall k cur rest, walk p cur (repeat (lit "super") k ++ rest) = walk p (Nat.iter k (@removelast str) cur) rest.
Proof.
  induction k as [|k IH]; intros cur rest; [reflexivity|]. cbn [repeat app]. unfold walk at 1; fold walk. rewrite str_eqb_same, IH.
  f_equal. clear. change (Nat.iter (S k) (@removelast str) cur) with (removelast (Nat.iter k (@removelast str) cur)).
  induction k as [|k IH]; [reflexivity|]. cbn. f_equal. exact IH.
Qed.

(** A path is a number of [super]s, and then nothing or another name. *)
Lemma split_supers segs : exists k rest, segs = repeat (lit "super") k ++ rest /\ (rest = [] \/ exists x r, rest = x :: r /\ x <> lit "super").
Proof.
  induction segs as [|x segs (k & rest & -> & R)]; [exists 0, []; auto|]. destruct (str_eqb x (lit "super")) eqn:E.
  - apply str_eqb_eq in E as ->. exists (S k), rest. auto.
  - apply eqb_spec' in E. exists 0. eexists. split; [reflexivity|]. right. eauto.
Qed.

Lemma walk_safe p m g segs : expanded p m g -> safe_from segs -> walk p (m ++ [g]) segs = walk p m segs.
Proof.
  intros X [U R]. destruct (split_supers segs) as (k & rest & E & H). destruct k as [|k].
  - cbn [repeat app] in E. subst rest. destruct H as [->|(x & r & -> & N)]; [reflexivity|].
    cbn [walk]. apply eqb_spec' in N. rewrite N, X. specialize (R x r eq_refl).
    apply is_in_false in R. unfold module_types. rewrite R. reflexivity.
  - subst segs. destruct H as [->|(x & r & -> & N)].
    + rewrite !walk_supers. reflexivity.
    + exfalso. apply U. exists k, x, r. auto.
Qed.

(** The program in which every name means a type of its own in every module, except for what
    the macro defines. *)
Definition apart (m : list str) (g : str) : program := fun cur x =>
  if list_eq_dec (list_eq_dec ascii_dec) cur (m ++ [g])
  then if is_in x (module_types false) then Some (EGen x) else Some (EType (List.length m))
  else Some (EType (List.length cur)).
Lemma apart_expanded m g : expanded (apart m g) m g.
Proof.
  intros x. unfold apart. destruct (list_eq_dec _ (m ++ [g]) (m ++ [g])) as [_|N]; [|congruence].
  destruct (is_in x (module_types false)); [reflexivity|]. destruct (list_eq_dec _ m (m ++ [g])) as [E|_]; [|reflexivity].
  apply (f_equal (@List.length _)) in E. rewrite app_length in E. cbn in E. lia.
Qed.
Lemma apart_at m g cur x : cur <> m ++ [g] -> apart m g cur x = Some (EType (List.length cur)).
Proof. intros N. unfold apart. destruct (list_eq_dec _ cur _); [contradiction|reflexivity]. Qed.

Lemma removelast_length (l : list str) : List.length (removelast l) = List.length l - 1.
Proof. induction l as [|a [|b l] IH]; [reflexivity..|]. cbn [removelast List.length] in *. lia. Qed.
Lemma iter_length k (l : list str) : List.length (Nat.iter k (@removelast str) l) = List.length l - k.
Proof.
  induction k as [|k IH]; [cbn; lia|]. change (Nat.iter (S k) (@removelast str) l) with (removelast (Nat.iter k (@removelast str) l)).
  rewrite removelast_length, IH. lia.
Qed.

Lemma walk_unsafe segs : ~ safe_from segs -> (forall x rest, segs = x :: rest -> reserved x) \/ goes_up segs.
Proof.
  intros N. destruct (split_supers segs) as (k & rest & -> & H). destruct k as [|k].
  - left. intros x r E. cbn [repeat app] in E. subst rest. destruct H as [H|(y & r' & H & Ny)]; [discriminate|]. injection H as -> ->.
    destruct (is_in y [lit "Args"; lit "UsingReader"; lit "HasRetTy"]) eqn:I; [now apply is_in_spec|]. exfalso. apply N. split.
    + intros (k & z & r & E & _). cbn [repeat app] in E. injection E as -> _. contradiction.
    + intros z r E. injection E as <- <-. now apply is_in_false.
  - destruct H as [->|(x & r & -> & Nx)].
    + exfalso. apply N. split.
      * intros (k' & z & r & E & Nz). rewrite app_nil_r in E.
        assert (I : In z (repeat (lit "super") (S k))) by (rewrite E; apply in_app_iff; right; now left).
        apply repeat_spec in I. contradiction.
      * intros z r E. cbn [repeat app] in E. injection E as <- _. unfold reserved. cbn. intros [K|[K|[K|[]]]]; discriminate.
    + right. exists k, x, r. auto.
Qed.

Lemma walk_differs segs : segs <> [] -> ~ safe_from segs -> exists m g, walk (apart m g) (m ++ [g]) segs <> walk (apart m g) m segs.
Proof.
  intros Ne N. apply walk_unsafe in N as [R|(k & x & r & -> & Nx)].
  - destruct segs as [|x r]; [congruence|]. exists [], (lit "g"). specialize (R x r eq_refl).
    assert (Nx : str_eqb x (lit "super") = false).
    { apply eqb_spec'. intros ->. destruct R as [R|[R|[R|[]]]]; discriminate. }
    cbn [walk]. rewrite Nx, apart_expanded, apart_at by discriminate.
    apply is_in_spec in R. unfold module_types. rewrite R. discriminate.
  - exists (repeat (lit "a") (S k)), (lit "g"). rewrite !walk_supers. cbn [walk]. apply eqb_spec' in Nx. rewrite Nx.
    set (M := repeat (lit "a") (S k)).
    assert (LM : List.length M = S k) by apply repeat_length.
    assert (L1 : List.length (Nat.iter (S k) (@removelast str) (M ++ [lit "g"])) = 1) by (rewrite iter_length, app_length, LM; cbn; lia).
    assert (L0 : List.length (Nat.iter (S k) (@removelast str) M) = 0) by (rewrite iter_length, LM; lia).
    rewrite !apart_at; [rewrite L1, L0; discriminate| |].
    + intros E. rewrite E, app_length, LM in L0. cbn in L0. lia.
    + intros E. rewrite E, app_length, LM in L1. cbn in L1. lia.
Qed.

Lemma safe_dec segs : safe_from segs \/ ~ safe_from segs.
Proof.
  destruct (split_supers segs) as (k & rest & E & H). destruct k as [|k].
  - cbn [repeat app] in E. subst rest. destruct H as [->|(x & r & -> & N)].
    + left. split; [intros (k & x & r & E & _); cbn in E; discriminate|discriminate].
    + destruct (is_in x [lit "Args"; lit "UsingReader"; lit "HasRetTy"]) eqn:I.
      * right. intros [_ R]. apply (R x r eq_refl). now apply is_in_spec.
      * left. split; [|intros y r' E; injection E as <- <-; now apply is_in_false].
        intros (k & z & r' & E & _). cbn [repeat app] in E. injection E as -> _. contradiction.
  - subst segs. destruct H as [->|(x & r & -> & Nx)].
    + left. split.
      * intros (k' & z & r & E & Nz). rewrite app_nil_r in E.
        assert (I : In z (repeat (lit "super") (S k))) by (rewrite E; apply in_app_iff; right; now left).
        apply repeat_spec in I. contradiction.
      * intros z r E. cbn [repeat app] in E. injection E as <- _. unfold reserved. cbn. intros [K|[K|[K|[]]]]; discriminate.
    + right. intros [U _]. apply U. exists k, x, r. auto.
Qed.

Definition same_inside (block ps : list str) (lead : bool) (segs : list str) : Prop :=
  forall p m g, expanded p m g -> resolve p (m ++ [g]) block ps lead segs = resolve p m [] ps lead segs.

Lemma safe_from_nil : safe_from [].
Proof. split; [intros (k & x & r & E & _); cbn in E; discriminate|discriminate]. Qed.

Lemma path_exact q ps lead segs : same_inside (block_types q) ps lead segs <-> safe (block_types q) ps lead segs.
Proof.
  unfold same_inside, safe, resolve. destruct lead; [split; auto|].
  destruct segs as [|x rest]; [split; auto|].
  destruct (str_eqb x (lit "crate")) eqn:C. { apply str_eqb_eq in C as ->. split; auto. }
  apply eqb_spec' in C. destruct (str_eqb x (lit "self")) eqn:Se.
  { apply str_eqb_eq in Se as ->. split.
    - intros H. right. right. left. split; [reflexivity|]. destruct (safe_dec rest) as [D|D]; [exact D|].
      destruct rest as [|y r]; [exact safe_from_nil|]. destruct (walk_differs (y :: r) ltac:(discriminate) D) as (m & g & W).
      exfalso. apply W. apply H. apply apart_expanded.
    - intros [H|[H|[[_ H]|[_ [H _]]]]]; [discriminate|discriminate| |congruence]. intros p m g X. now apply walk_safe. }
  apply eqb_spec' in Se. cbn [is_in existsb].
  destruct (is_in x (block_types q)) eqn:B.
  - split.
    + intros H. exfalso. specialize (H (apart [] (lit "g")) [] (lit "g") (apart_expanded _ _)).
      destruct (is_in x ps); [discriminate|]. cbn [walk] in H. assert (Nx : str_eqb x (lit "super") = false).
      { apply eqb_spec'. intros ->. apply is_in_spec in B. destruct q; cbn in B; intuition discriminate. }
      rewrite Nx, apart_at in H by discriminate. discriminate.
    + intros [H|[H|[[H _]|[_ [_ [H _]]]]]]; try congruence. apply is_in_spec in B. contradiction.
  - apply is_in_false in B. destruct (is_in x ps) eqn:P.
    + apply is_in_spec in P. split; [|reflexivity]. intros _. right. right. right. auto.
    + apply is_in_false in P. split.
      * intros H. right. right. right. split; [exact C|]. split; [exact Se|]. split; [exact B|]. right.
        destruct (safe_dec (x :: rest)) as [D|D]; [exact D|]. destruct (walk_differs (x :: rest) ltac:(discriminate) D) as (m & g & W).
        exfalso. apply W. apply H. apply apart_expanded.
      * intros [H|[H|[[H _]|[_ [_ [_ [H|H]]]]]]]; try congruence. intros p m g X. now apply walk_safe.
Qed.

(** A type means the same where the macro repeats it, whatever the program is, exactly if
    none of its paths starts with a name the macro defines there, and none goes up through
    [super]. *)
Theorem C88_types_exact :
  forall (q : position) (ps : list str) (t : rty),
    (forall (p : program) (m : list str) (g : str), expanded p m g ->
       forall lead segs, In (lead, segs) (paths t) ->
         resolve p (m ++ [g]) (block_types q) ps lead segs = resolve p m [] ps lead segs) <->
    (forall lead segs, In (lead, segs) (paths t) -> safe (block_types q) ps lead segs).
Proof.
  intros q ps t. split.
  - intros H lead segs I. apply path_exact. intros p m g X. now apply H.
  - intros H p m g X lead segs I. apply path_exact; auto.
Qed.
Print Assumptions C88_types_exact.

(** So a target whose self type is called [Args] refers to the wrong type in the generated
    module, and so does one with a type of the parent module. *)
Theorem C88_types_refuted :
  exists (p : program) (m : list str) (g : str),
    expanded p m g /\
    (exists e e', resolve p m [] [] false [lit "Args"] = Some (e, []) /\ resolve p (m ++ [g]) [] [] false [lit "Args"] = Some (e', []) /\ e <> e') /\
    (exists e e', resolve p m [] [] false [lit "super"; lit "Foo"] = Some (e, []) /\
                  resolve p (m ++ [g]) [] [] false [lit "super"; lit "Foo"] = Some (e', []) /\ e <> e').
Proof.
  exists (apart [lit "m"] (lit "f_fuzz__")), [lit "m"], (lit "f_fuzz__"). split; [apply apart_expanded|]. split.
  - exists (EType 1), (EGen (lit "Args")). split; [reflexivity|]. split; [reflexivity|discriminate].
  - exists (EType 0), (EType 1). split; [reflexivity|]. split; [reflexivity|discriminate].
Qed.
Print Assumptions C88_types_refuted.

(** ** Generic parameters *)

Definition occurs_const (ps : list gparam) : Prop := exists x, In (PConst x) ps.
Definition value_names (ps : list gparam) : list str :=
  List.concat (map (fun p => match p with PLifetime _ => [] | PType s | PConst s => [s] end) ps).

(** The rules of the compiler the declarations have to meet: [Args] declares each parameter as
    what it is; no two type or constant parameters in scope of [read_args] have the same name
    (E0403); an argument list of [write_args] is empty or complete (E0107). *)
Definition accepted (ps : list gparam) : Prop :=
  args_params ps = ps /\ NoDup (value_names (reader_params ps)) /\
  (write_args_args ps = [] \/ List.length (write_args_args ps) = List.length (value_names ps)).

(** They are met exactly if there is no constant parameter and no type parameter is called [R]. *)
Theorem C88_parameters_exact :
  forall ps : list gparam, NoDup (value_names ps) ->
    (accepted ps <-> ~ occurs_const ps /\ ~ In (PType (lit "R")) ps).
Proof.
  intros ps ND. unfold accepted, occurs_const.
  assert (A : args_params ps = ps <-> ~ exists x, In (PConst x) ps).
  { clear. unfold args_params. induction ps as [|p ps IH]; cbn [map]; [split; [intros _ (x & [])|reflexivity]|]. split.
    - intros E. injection E as E1 E2. intros (x & [->|I]); [discriminate|]. apply IH in E2. apply E2. eauto.
    - intros N. f_equal; [destruct p; try reflexivity; exfalso; apply N; eexists; now left|]. apply IH. intros (x & I). apply N. exists x. now right. }
  assert (V : forall x, In x (value_names ps) <-> In (PType x) ps \/ In (PConst x) ps).
  { clear. intros x. unfold value_names. rewrite in_concat. split.
    - intros (l & I & J). apply in_map_iff in I as (p & <- & I). destruct p; cbn in J; [contradiction|destruct J as [->|[]]; auto..].
    - intros [I|I]; exists [x]; (split; [|now left]); apply in_map_iff; eexists; (split; [|exact I]); reflexivity. }
  assert (W : (~ exists x, In (PConst x) ps) -> List.length (write_args_args ps) = List.length (value_names ps)).
  { clear. unfold write_args_args, value_names. induction ps as [|p ps IH]; intros N; [reflexivity|]. cbn [map List.concat].
    rewrite !app_length, IH by (intros (x & I); apply N; exists x; now right). destruct p; try reflexivity. exfalso. apply N. eexists. now left. }
  split.
  - intros (H1 & H2 & _). apply A in H1. split; [exact H1|]. intros I. unfold reader_params, value_names in H2. cbn [map List.concat app] in H2.
    apply NoDup_cons_iff in H2 as [H2 _]. apply H2. apply V. now left.
  - intros [H1 H2]. split; [now apply A|]. split; [|right; now apply W]. unfold reader_params, value_names. cbn [map List.concat app]. constructor; [|exact ND].
    intros I. apply V in I as [I|I]; [contradiction|]. apply H1. eauto.
Qed.
Print Assumptions C88_parameters_exact.

(** ** Variables *)

(** The recorded values are those of the parameters (C20), if no parameter has the name of a
    variable of the recording code. *)
Theorem C88_recorded :
  forall (w : world) (tp : option rpath) (self : option rty) (opts : list (list rty)) (draws : list N) (l : list fn_arg)
         (rs : list mapped_arg) (vars : str -> option (ty * val)) (vals : list val) (impl_types fn_types : nat),
    expand_args tp self opts draws l = Ret rs -> NoDup (map m_ident rs) ->
    Forall2 (whole w tp self (conversion opts) vars) l vals ->
    (forall a x t, In a l -> binds tp self a x t -> x <> lit "generic_args" /\ x <> lit "impl_generic_args") ->
    exists stored,
      Forall2 (fun r v => ev w (body_vars impl_types fn_types vars) (fun _ => None) (ser r) (sem (stored_type r)) v) rs stored /\
      Forall2 (fun r v => ev w (fun _ => None) (record rs stored) (de r) (sem (m_type r)) v) rs vals.
Proof.
  intros w tp self opts draws l rs vars vals n1 n2 E ND F H.
  assert (F' : Forall2 (whole w tp self (conversion opts) (body_vars n1 n2 vars)) l vals).
  { clear - F H. induction F as [|a v l vals (x & t & B & V & R) F IH]; [constructor|]. constructor.
    - exists x, t. split; [exact B|]. split; [|exact R]. unfold body_vars.
      destruct (H a x t (or_introl eq_refl) B) as [N1 N2]. apply eqb_spec' in N1, N2. now rewrite N1, N2.
    - apply IH. intros a' x' t' I. apply H. now right. }
  destruct (C20_call _ _ _ _ _ _ _ _ _ E ND F') as [_ S]. exact S.
Qed.
Print Assumptions C88_recorded.

(** The value of an argument called [generic_args] is not recorded: what the recording code
    would store is no value of the field's type. *)
Theorem C88_recorded_refuted :
  exists (w : world) (l : list fn_arg) (rs : list mapped_arg) (vars : str -> option (ty * val)) (vals : list val),
    expand_args None None [] [] l = Ret rs /\ Forall2 (whole w None None (conversion []) vars) l vals /\
    forall n1 n2 stored,
      ~ Forall2 (fun r v => ev w (body_vars n1 n2 vars) (fun _ => None) (ser r) (sem (stored_type r)) v) rs stored.
Proof.
  exists {| clonable := fun _ => True; from_ref := fun _ _ _ => None; into := fun _ _ _ => None |},
    [Typed 0 (PatIdent (lit "generic_args") None) (RRef None false (rname "str"))].
  eexists. exists (fun x => if str_eqb x (lit "generic_args") then Some (TRef false TStr, VRef (VStr (lit "abc"))) else None), [VRef (VStr (lit "abc"))].
  split; [vm_compute; reflexivity|]. split.
  - constructor; [|constructor]. exists (lit "generic_args"), (RRef None false (rname "str")).
    split; [apply b_ident; reflexivity|]. split; [reflexivity|]. split; [exact I|]. split; [intros (n & m & t & E); discriminate|].
    cbn [attributes]. apply st_str; reflexivity.
  - intros n1 n2 stored F. inversion F as [|r v rs' vs E _]; subst. unfold ser in E. cbn [m_mapped fst snd] in E.
    inversion E as [| | | | | | |e m s X Y Z| | | | |]; subst.
    inversion X as [x t v V| | | | | | | | | | | |]; subst. discriminate V.
Qed.
Print Assumptions C88_recorded_refuted.

(** What it finds under the two names, whatever the parameters: the macro's arrays of the names of
    the generic arguments, [[&'static str; n]] (macro/src/lib.rs:494-505). *)
Theorem C88_captured :
  forall (impl_types fn_types : nat) (vars : str -> option (ty * val)),
    (exists v, body_vars impl_types fn_types vars (lit "generic_args") = Some (TOther (RArray (RRef (Some (lit "'static")) false (rname "str")) [Tk (dec (N.of_nat fn_types))]), v)) /\
    (exists v, body_vars impl_types fn_types vars (lit "impl_generic_args") = Some (TOther (RArray (RRef (Some (lit "'static")) false (rname "str")) [Tk (dec (N.of_nat impl_types))]), v)) /\
    forall x, x <> lit "generic_args" -> x <> lit "impl_generic_args" -> body_vars impl_types fn_types vars x = vars x.
Proof.
  intros n1 n2 vars. split; [eexists; reflexivity|]. split; [eexists; reflexivity|]. intros x N1 N2. unfold body_vars. apply eqb_spec' in N1, N2. now rewrite N1, N2.
Qed.
Print Assumptions C88_captured.

(** A vector of a type of the own module, and one of the type parameter [T], are safe; a
    value of type [Auto] is stored, but no values for it can be generated. *)
Example C88_example :
  (forall lead segs, In (lead, segs) (paths (rapp "Vec" [RTuple [rname "Foo"; rname "T"]])) -> safe (block_types PosAuto) [lit "T"] lead segs) /\
  (forall lead segs, In (lead, segs) (paths (rname "Auto")) -> safe (block_types PosField) [] lead segs) /\
  ~ (forall lead segs, In (lead, segs) (paths (rname "Auto")) -> safe (block_types PosAuto) [] lead segs) /\
  accepted [PLifetime (lit "'a"); PType (lit "T")] /\ ~ accepted [PType (lit "R")] /\ ~ accepted [PType (lit "T"); PConst (lit "N")].
Proof.
  assert (SF : forall x, ~ reserved x -> x <> lit "super" -> safe_from [x]).
  { intros x N M. split; [|intros y r E; injection E as <- <-; exact N]. intros (k & y & r & E & _). cbn [repeat app] in E. apply M. now inversion E. }
  split; [|split; [|split; [|split; [|split]]]].
  - cbn. intros lead segs [E|[E|[E|[]]]]; injection E as <- <-; right; right; right; (split; [discriminate|split; [discriminate|split]]);
      try (cbn; intros [K|[K|[]]]; discriminate); try (left; now left); right; apply SF; try discriminate; cbn; intros [K|[K|[K|[]]]]; discriminate.
  - cbn. intros lead segs [E|[]]. injection E as <- <-. right; right; right. split; [discriminate|]. split; [discriminate|]. split; [intros []|]. right.
    apply SF; try discriminate; cbn; intros [K|[K|[K|[]]]]; discriminate.
  - intros H. destruct (H false [lit "Auto"]) as [K|K]; [now left|discriminate|]. destruct K as [K|[[K _]|(_ & _ & K & _)]]; try discriminate. apply K. right. now left.
  - apply C88_parameters_exact; [repeat constructor; intros []|]. split; [intros (x & [E|[E|[]]]); discriminate|]. intros [E|[E|[]]]; discriminate.
  - rewrite C88_parameters_exact by (repeat constructor; intros []). intros [_ N]. apply N. now left.
  - intros (E & _). discriminate.
Qed.
