(** C90: reading the options of the attribute. *)
From Coq Require Import List Ascii String Bool Arith NArith Lia.
From Verif Require Import Base Syntax SelfTy MacroArgs MacroMod Options.
Import ListNotations.
Local Open Scope nat_scope.

(** ** Specification *)

Definition text_options : list str := [lit "bounds"; lit "execute_with"; lit "generic_args"; lit "impl_generic_args"; lit "convert"].
Definition flag_options : list str := [lit "enable_in_production"; lit "no_auto_generate"; lit "only_generic_args"].

(** The item gives option [n] the value [v]. *)
Inductive gives (is_ident : str -> bool) : meta -> str -> field_value -> Prop :=
| gives_text n s : In n text_options -> gives is_ident (MValue n (LStr s)) n (FText s)
| gives_name s : is_ident s = true -> gives is_ident (MValue (lit "rename") (LStr s)) (lit "rename") (FText s)
| gives_flag n : In n flag_options -> gives is_ident (MWord n) n (FFlag true)
| gives_bool n b : In n flag_options -> gives is_ident (MValue n (LBool b)) n (FFlag b)
| gives_true n : In n flag_options -> gives is_ident (MValue n (LStr (lit "true"))) n (FFlag true)
| gives_false n : In n flag_options -> gives is_ident (MValue n (LStr (lit "false"))) n (FFlag false).

(** Every item gives some option a value, and no option but [convert] is given twice. *)
Definition well_formed (is_ident : str -> bool) (l : list meta) : Prop :=
  (forall m, In m l -> exists n v, gives is_ident m n v) /\
  (forall a m b m' c n v v', l = a ++ m :: b ++ m' :: c -> gives is_ident m n v -> gives is_ident m' n v' -> n = lit "convert").

(** The texts of the [convert] options, in order. *)
Definition converts (l : list meta) : list str :=
  List.concat (map (fun m => match m with MValue n (LStr s) => if str_dec n (lit "convert") then [s] else [] | _ => [] end) l).

(** ** Proofs *)

Lemma eqb_no x y : x <> y -> str_eqb x y = false.
Proof. intros N. destruct (str_eqb x y) eqn:E; [|reflexivity]. apply str_eqb_eq in E. contradiction. Qed.

Lemma gives_named i m n v : gives i m n v -> meta_name m = Some n.
Proof. intros G. destruct G; reflexivity. Qed.
Lemma gives_fun i m n v n' v' : gives i m n v -> gives i m n' v' -> n = n' /\ v = v'.
Proof.
  intros G G'. assert (n = n') by (apply gives_named in G, G'; congruence). subst n'. split; [reflexivity|].
  destruct G as [n s I|s I|n I|n b I|n I|n I]; inversion G' as [n' s' I'|s' I'|n' I'|n' b' I'|n' I'|n' I']; subst; try reflexivity; try discriminate;
    cbn in *; repeat match goal with H : _ \/ _ |- _ => destruct H end; subst; try discriminate; contradiction.
Qed.

(** An item that gives an option other than [convert]. *)
Lemma gives_field i m n v : gives i m n v -> n <> lit "convert" -> exists k, find_field n fields = Some k /\ from_meta i k m = Some v.
Proof.
  intros G N. destruct G as [n s I|s I|n I|n b I|n I|n I]; cbn in I;
    repeat match goal with H : _ \/ _ |- _ => destruct H end; subst; try contradiction;
    try (eexists; split; [reflexivity|reflexivity]); try (now exfalso; apply N).
  exists KIdent. split; [reflexivity|]. cbn [from_meta]. now rewrite I.
Qed.
Lemma field_gives i m n k v : meta_name m = Some n -> find_field n fields = Some k -> from_meta i k m = Some v -> gives i m n v.
Proof.
  intros M F E. unfold find_field in F. destruct (List.find _ fields) as [[n' k']|] eqn:L; [|discriminate]. cbn in F. injection F as ->.
  apply find_some in L as [L Q]. cbn [fst] in Q. apply str_eqb_eq in Q. subst n'.
  assert (T : (In n text_options /\ k = KString) \/ (In n flag_options /\ k = KBool) \/ (n = lit "rename" /\ k = KIdent)).
  { cbn in L. unfold text_options, flag_options. cbn [In]. repeat destruct L as [L|L]; try contradiction; injection L as <- <-; tauto. }
  destruct T as [(I & ->)|[(I & ->)|(-> & ->)]]; destruct m as [x|x [s|b|]|x|]; cbn [meta_name] in M; cbn [from_meta] in E; try discriminate; injection M as ->.
  - injection E as <-. now constructor.
  - injection E as <-. now constructor.
  - destruct (str_eqb s (lit "true")) eqn:S1; [apply str_eqb_eq in S1; subst s; injection E as <-; now apply gives_true|].
    destruct (str_eqb s (lit "false")) eqn:S2; [apply str_eqb_eq in S2; subst s; injection E as <-; now apply gives_false|discriminate].
  - injection E as <-. now constructor.
  - destruct (i s) eqn:I; [|discriminate]. injection E as <-. now constructor.
Qed.
Lemma convert_gives i m s : meta_name m = Some (lit "convert") -> from_meta i KString m = Some (FText s) -> gives i m (lit "convert") (FText s).
Proof.
  intros M E. destruct m as [x|x [t|b|]|x|]; try discriminate. cbn in M, E. injection M as ->. injection E as ->. constructor. cbn. tauto.
Qed.

(** One item after a list. *)
Lemma well_formed_snoc i l m : well_formed i (l ++ [m]) <->
  well_formed i l /\ exists n v, gives i m n v /\ (n <> lit "convert" -> forall m' v', In m' l -> ~ gives i m' n v').
Proof.
  split.
  - intros [A B]. split.
    + split; [intros x I; apply A; apply in_app_iff; now left|]. intros a x b x' c n v v' E G G'.
      apply (B a x b x' (c ++ [m]) n v v'); [|exact G|exact G']. rewrite E. now rewrite <- !app_assoc, <- !app_comm_cons, <- app_assoc.
    + destruct (A m) as (n & v & G); [apply in_app_iff; right; now left|]. exists n, v. split; [exact G|]. intros N m' v' I G'.
      apply in_split in I as (a & b & ->). apply N. apply (B a m' b m [] n v' v); [|exact G'|exact G]. now rewrite <- app_assoc, <- app_comm_cons.
  - intros [[A B] (n & v & G & D)]. split.
    + intros x I. apply in_app_iff in I as [I|[<-|[]]]; eauto.
    + intros a x b x' c n' w w' E Gx Gx'. destruct c as [|y c] using rev_ind.
      * assert (E' : l ++ [m] = (a ++ x :: b) ++ [x']) by (rewrite E, <- app_assoc; reflexivity). apply app_inj_tail in E' as [-> ->].
        destruct (gives_fun _ _ _ _ _ _ G Gx') as [-> _]. destruct (str_dec n' (lit "convert")) as [Q|Q]; [exact Q|]. exfalso. apply (D Q x w); [|exact Gx].
        apply in_app_iff. right. now left.
      * clear IHc. assert (E' : l ++ [m] = (a ++ x :: b ++ x' :: c) ++ [y]).
        { rewrite E. now rewrite <- !app_assoc, <- !app_comm_cons, <- !app_assoc, <- !app_comm_cons. }
        apply app_inj_tail in E' as [-> ->]. eapply B; eauto.
Qed.

Definition start : rstate := {| r_seen := []; r_convert := []; r_errors := 0 |}.
Definition reads i (l : list meta) : rstate := fold_left (read_item i) l start.

Lemma read_item_errors i st m : r_errors st <= r_errors (read_item i st m).
Proof.
  unfold read_item. destruct (meta_name m); [|cbn; lia]. destruct (str_eqb _ _).
  - destruct (from_meta i KString m) as [[|]|]; cbn; lia.
  - destruct (find_field _ fields); [|cbn; lia]. destruct (find_field _ (r_seen st)); [cbn; lia|]. destruct (from_meta _ _ _); cbn; lia.
Qed.

Lemma reads_spec i l :
  (r_errors (reads i l) = 0 <-> well_formed i l) /\
  (r_errors (reads i l) = 0 ->
     (forall n x, find_field n (r_seen (reads i l)) = Some x <-> n <> lit "convert" /\ exists m v, In m l /\ gives i m n v /\ x = Some v) /\
     r_convert (reads i l) = converts l).
Proof.
  induction l as [|m l IH] using rev_ind.
  - split; [split; [intros _|reflexivity]|].
    + split; [intros m []|]. intros a m b m' c n v v' E. destruct a; discriminate.
    + intros _. split; [|reflexivity]. intros n x. split; [discriminate|]. intros (_ & m & v & [] & _).
  - unfold reads. rewrite fold_left_app. cbn [fold_left]. fold (reads i l). destruct IH as [IH1 IH2]. rewrite well_formed_snoc.
    set (st := reads i l) in *.
    destruct (Nat.eq_dec (r_errors st) 0) as [Z|Z].
    2:{ pose proof (read_item_errors i st m). split; [split; [lia|]|lia]. intros [W _]. exfalso. apply Z. now apply IH1. }
    destruct (IH2 Z) as [S C]. pose proof (proj1 IH1 Z) as W.
    assert (CV : forall l', converts (l' ++ [m]) = converts l' ++ converts [m]) by (intros l'; unfold converts; now rewrite map_app, concat_app).
    unfold read_item. destruct (meta_name m) as [n|] eqn:M.
    2:{ cbn [r_errors]. split; [split; [discriminate|]|discriminate]. intros [_ (n & v & G & _)]. apply gives_named in G. congruence. }
    destruct (str_eqb n (lit "convert")) eqn:Q.
    + apply str_eqb_eq in Q. subst n. destruct (from_meta i KString m) as [[s|b]|] eqn:F.
      * pose proof (convert_gives _ _ _ M F) as G. cbn [r_errors r_seen r_convert]. split.
        -- split; [intros _|auto]. split; [exact W|]. exists (lit "convert"), (FText s). split; [exact G|congruence].
        -- intros _. split.
           ++ intros n x. rewrite S. split; intros (N & m' & v & I & G' & X); (split; [exact N|]); exists m', v; (split; [|auto]).
              ** apply in_app_iff. now left.
              ** apply in_app_iff in I as [I|[<-|[]]]; [exact I|]. destruct (gives_fun _ _ _ _ _ _ G G') as [E _]. congruence.
           ++ rewrite CV, C. f_equal. inversion G as [n0 s0 I0 E1 E2 E3| | | | |]; subst; try (cbn in *; repeat match goal with H : _ \/ _ |- _ => destruct H end; try discriminate; contradiction).
              cbn. now destruct (str_dec (lit "convert") (lit "convert")).
      * destruct m as [x|x [t|b'|]|x|]; discriminate.
      * cbn [r_errors]. split; [split; [discriminate|]|discriminate]. intros [_ (n & v & G & _)]. pose proof (gives_named _ _ _ _ G) as M'. rewrite M in M'. injection M' as <-.
        inversion G as [n0 s0 I0 E1 E2 E3| | | | |]; subst; try (cbn in *; repeat match goal with H : _ \/ _ |- _ => destruct H end; discriminate || contradiction). 
    + assert (NC : n <> lit "convert") by (intros ->; rewrite str_eqb_same in Q; discriminate).
      assert (BAD : (forall k, find_field n fields = Some k -> from_meta i k m = None) -> ~ exists n v, gives i m n v /\ (n <> lit "convert" -> forall m' v', In m' l -> ~ gives i m' n v')).
      { intros H (n' & v & G & _). pose proof (gives_named _ _ _ _ G) as M'. rewrite M in M'. injection M' as <-. destruct (gives_field _ _ _ _ G NC) as (k & F & E). rewrite (H k F) in E. discriminate. }
      destruct (find_field n fields) as [k|] eqn:F.
      2:{ cbn [r_errors]. split; [split; [discriminate|]|discriminate]. intros [_ H]. exfalso. revert H. apply BAD. discriminate. }
      destruct (find_field n (r_seen st)) as [x|] eqn:X.
      * cbn [r_errors]. split; [split; [discriminate|]|discriminate]. intros [_ (n' & v & G & D)]. pose proof (gives_named _ _ _ _ G) as M'. rewrite M in M'. injection M' as <-.
        apply S in X as (_ & m' & v' & I & G' & _). exfalso. exact (D NC m' v' I G').
      * destruct (from_meta i k m) as [v|] eqn:E.
        -- pose proof (field_gives _ _ _ _ _ M F E) as G. cbn [r_errors r_seen r_convert]. split.
           ++ split; [intros _|auto]. split; [exact W|]. exists n, v. split; [exact G|]. intros _ m' v' I G'.
              assert (K : find_field n (r_seen st) = Some (Some v')) by (apply S; eauto 8). congruence.
           ++ intros _. split.
              ** intros n' x. unfold find_field. cbn [List.find fst]. destruct (str_eqb n n') eqn:QQ.
                 --- apply str_eqb_eq in QQ. subst n'. cbn [option_map snd]. split.
                     +++ intros Y. injection Y as <-. split; [exact NC|]. exists m, v. split; [apply in_app_iff; right; now left|auto].
                     +++ intros (_ & m' & v' & I & G' & ->). apply in_app_iff in I as [I|[<-|[]]].
                         *** exfalso. assert (K : find_field n (r_seen st) = Some (Some v')) by (apply S; eauto 8). congruence.
                         *** destruct (gives_fun _ _ _ _ _ _ G G') as [_ ->]. reflexivity.
                 --- fold (find_field n' (r_seen st)). rewrite S. split; intros (N & m' & v' & I & G' & Y); (split; [exact N|]); exists m', v'; (split; [|auto]).
                     +++ apply in_app_iff. now left.
                     +++ apply in_app_iff in I as [I|[<-|[]]]; [exact I|]. destruct (gives_fun _ _ _ _ _ _ G G') as [-> _]. rewrite str_eqb_same in QQ. discriminate.
              ** rewrite CV, C. assert (Z1 : converts [m] = []); [|rewrite Z1; now rewrite app_nil_r].
                 unfold converts. cbn [map List.concat]. destruct m as [y|y [t|b|]|y|]; try reflexivity. cbn in M. injection M as ->. destruct (str_dec n (lit "convert")); [contradiction|reflexivity].
        -- cbn [r_errors]. split; [split; [discriminate|]|discriminate]. intros [_ H]. exfalso. revert H. apply BAD. congruence.
Qed.

(** Options are accepted exactly if every item is one of the documented options with a value of
    its type, and none but [convert] is repeated; anything else stops the expansion. *)
Theorem C90_accepted_exact :
  forall (is_ident : str -> bool) (l : list meta),
    ((exists o, from_list is_ident l = Ret o) <-> well_formed is_ident l) /\
    (from_list is_ident l = Panic <-> ~ well_formed is_ident l).
Proof.
  intros i l. destruct (reads_spec i l) as [W _]. rewrite <- W. unfold from_list. change (fold_left _ l _) with (reads i l).
  destruct (r_errors (reads i l)) as [|e] eqn:E.
  - split; [split; [reflexivity|eauto]|]. split; [discriminate|]. intros K. exfalso. now apply K.
  - split; [split; [intros (o & K); discriminate|discriminate]|]. split; [discriminate|reflexivity].
Qed.
Print Assumptions C90_accepted_exact.

(** Each option has the value given for it, and its default otherwise. *)
Theorem C90_values :
  forall (is_ident : str -> bool) (l : list meta) (o : topts),
    from_list is_ident l = Ret o ->
    let text n x := forall s, x = Some s <-> exists m, In m l /\ gives is_ident m (lit n) (FText s) in
    let flag n x := x = true <-> exists m, In m l /\ gives is_ident m (lit n) (FFlag true) in
    text "bounds"%string (t_bounds o) /\ text "execute_with"%string (t_execute_with o) /\ text "generic_args"%string (t_generic_args o) /\
    text "impl_generic_args"%string (t_impl_generic_args o) /\ text "rename"%string (t_rename o) /\
    flag "enable_in_production"%string (t_enable_in_production o) /\ flag "no_auto_generate"%string (t_no_auto_generate o) /\
    flag "only_generic_args"%string (t_only_generic_args o) /\ t_convert o = converts l.
Proof.
  intros i l o E text flag. unfold from_list in E. change (fold_left _ l _) with (reads i l) in E.
  destruct (reads_spec i l) as [_ S]. destruct (r_errors (reads i l)) as [|e]; [|discriminate]. specialize (S eq_refl) as [S C].
  assert (T : forall n, lit n <> lit "convert" -> text n (text_field (reads i l) (lit n))).
  { intros n N s. unfold text_field. split.
    - intros Q. destruct (find_field (lit n) (r_seen (reads i l))) as [x|] eqn:X; [|discriminate]. apply S in X as (_ & m & v & I & G & ->). destruct v; [|discriminate]. injection Q as ->. eauto.
    - intros (m & I & G). assert (X : find_field (lit n) (r_seen (reads i l)) = Some (Some (FText s))) by (apply S; eauto 8). now rewrite X. }
  assert (F : forall n, lit n <> lit "convert" -> flag n (flag_field (reads i l) (lit n))).
  { intros n N. unfold flag, flag_field. split.
    - intros Q. destruct (find_field (lit n) (r_seen (reads i l))) as [x|] eqn:X; [|discriminate]. apply S in X as (_ & m & v & I & G & ->). destruct v; [discriminate|]. subst. eauto.
    - intros (m & I & G). assert (X : find_field (lit n) (r_seen (reads i l)) = Some (Some (FFlag true))) by (apply S; eauto 8). now rewrite X. }
  injection E as <-. cbn [t_bounds t_execute_with t_generic_args t_impl_generic_args t_rename t_enable_in_production t_no_auto_generate t_only_generic_args t_convert].
  repeat (split; [first [apply T; discriminate|apply F; discriminate]|]). exact C.
Qed.
Print Assumptions C90_values.

(** On a method and on a function the attribute is read alike, with and without arguments; but
    options given as [#[test_fuzz = ...]] are refused on a function and ignored silently on a
    method. *)
Theorem C90_forms :
  forall (is_ident : str -> bool),
    (forall f, f <> FNameValue -> opts_from_attr is_ident f = opts_of_function is_ident f) /\
    opts_from_attr is_ident FPath =
      Ret {| t_bounds := None; t_convert := []; t_enable_in_production := false; t_execute_with := None; t_generic_args := None;
             t_impl_generic_args := None; t_no_auto_generate := false; t_only_generic_args := false; t_rename := None |} /\
    opts_from_attr is_ident FNameValue = opts_from_attr is_ident FPath /\
    opts_of_function is_ident FNameValue = Panic.
Proof. intros i. split; [|repeat split; reflexivity]. intros [|l|] N; try reflexivity. contradiction. Qed.
Print Assumptions C90_forms.

(** The expansion sees exactly these options: without arguments, the defaults. *)
Theorem C90_expansion :
  forall (preds : str -> outcome (list str)) (expr_ : str -> outcome (list tok)) (types : str -> outcome (list rty))
    (args : str -> outcome (list (garg rty))) (t : topts) (o : mopts),
    parsed preds expr_ types args t = Ret o ->
    mapM types (t_convert t) = Ret (o_convert o) /\
    match t_generic_args t with Some s => exists l, args s = Ret l /\ o_generic_args o = Some l | None => o_generic_args o = None end /\
    match t_impl_generic_args t with Some s => exists l, args s = Ret l /\ o_impl_generic_args o = Some l | None => o_impl_generic_args o = None end /\
    match t_bounds t with Some s => exists l, preds s = Ret l /\ o_bounds o = Some l | None => o_bounds o = None end /\
    match t_execute_with t with Some s => exists l, expr_ s = Ret l /\ o_execute_with o = Some l | None => o_execute_with o = None end /\
    o_enable_in_production o = t_enable_in_production t /\ o_no_auto_generate o = t_no_auto_generate t /\
    o_only_generic_args o = t_only_generic_args t /\ o_rename o = t_rename t.
Proof.
  intros preds expr_ types args t o E. unfold parsed in E. destruct (mapM types (t_convert t)) as [cs| |]; cbn [bind] in E; try discriminate.
  destruct (t_impl_generic_args t) as [si|]; [destruct (args si) as [li| |] eqn:Ai; cbn [bind] in E; try discriminate|cbn [bind] in E];
    (destruct (t_generic_args t) as [sg|]; [destruct (args sg) as [lg| |] eqn:Ag; cbn [bind] in E; try discriminate|cbn [bind] in E]);
    (destruct (t_bounds t) as [sb|]; [destruct (preds sb) as [lb| |] eqn:Ab; cbn [bind] in E; try discriminate|cbn [bind] in E]);
    (destruct (t_execute_with t) as [se|]; [destruct (expr_ se) as [le| |] eqn:Ae; cbn [bind] in E; try discriminate|cbn [bind] in E]);
    injection E as <-; cbn; repeat split; eauto.
Qed.
Print Assumptions C90_expansion.

(** And there is an expansion unless a text does not parse. *)
Theorem C90_parses :
  forall (preds : str -> outcome (list str)) (expr_ : str -> outcome (list tok)) (types : str -> outcome (list rty))
    (args : str -> outcome (list (garg rty))) (t : topts),
    (exists o, parsed preds expr_ types args t = Ret o) <->
    (exists cs, mapM types (t_convert t) = Ret cs) /\
    (forall s, t_generic_args t = Some s \/ t_impl_generic_args t = Some s -> exists l, args s = Ret l) /\
    (forall s, t_bounds t = Some s -> exists l, preds s = Ret l) /\
    (forall s, t_execute_with t = Some s -> exists l, expr_ s = Ret l).
Proof.
  intros preds expr_ types args t. split.
  - intros (o & E). destruct (C90_expansion preds expr_ types args t o E) as (Ec & Eg & Ei & Eb & Ee & _). split; [eauto|]. split; [|split].
    + intros s [K|K]; rewrite K in *; [destruct Eg as (l & ? & _)|destruct Ei as (l & ? & _)]; eauto.
    + intros s K. rewrite K in *. destruct Eb as (l & ? & _); eauto.
    + intros s K. rewrite K in *. destruct Ee as (l & ? & _); eauto.
  - intros ((cs & Ec) & A & B & C). unfold parsed. rewrite Ec. cbn [bind].
    destruct (t_impl_generic_args t) as [si|]; [destruct (A si (or_intror eq_refl)) as (li & Ai); rewrite Ai|]; cbn [bind];
      (destruct (t_generic_args t) as [sg|]; [destruct (A sg (or_introl eq_refl)) as (lg & Ag); rewrite Ag|]); cbn [bind];
      (destruct (t_bounds t) as [sb|]; [destruct (B sb eq_refl) as (lb & Ab); rewrite Ab|]); cbn [bind];
      (destruct (t_execute_with t) as [se|]; [destruct (C se eq_refl) as (le & Ae); rewrite Ae|]); cbn [bind]; eauto.
Qed.
Print Assumptions C90_parses.

(** The attribute without arguments gives the default options. *)
Theorem C90_defaults :
  forall (is_ident : str -> bool) preds expr_ types args,
    bind (opts_of_function is_ident FPath) (parsed preds expr_ types args) = Ret default_mopts.
Proof. reflexivity. Qed.
Print Assumptions C90_defaults.

Definition ex_ident (s : str) : bool := negb (str_eqb s (lit "fn")).
Example C90_example :
  from_list ex_ident [MValue (lit "convert") (LStr (lit "A, B")); MWord (lit "enable_in_production"); MValue (lit "convert") (LStr (lit "C, D"));
                      MValue (lit "rename") (LStr (lit "bar")); MValue (lit "no_auto_generate") (LBool false)]
  = Ret {| t_bounds := None; t_convert := [lit "A, B"; lit "C, D"]; t_enable_in_production := true; t_execute_with := None; t_generic_args := None;
           t_impl_generic_args := None; t_no_auto_generate := false; t_only_generic_args := false; t_rename := Some (lit "bar") |} /\
  from_list ex_ident [MWord (lit "only_generic_args"); MWord (lit "only_generic_args")] = Panic /\
  from_list ex_ident [MWord (lit "generic_args")] = Panic /\ from_list ex_ident [MValue (lit "rename") (LStr (lit "fn"))] = Panic /\
  from_list ex_ident [MWord (lit "generic")] = Panic.
Proof. repeat split. Qed.
