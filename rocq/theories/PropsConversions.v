(** Theorems about what the macro says about a conversion that applies to no argument (C129). *)
From Coq Require Import List Ascii String Bool Arith NArith Lia Sorted Permutation.
From Verif Require Import Base Semver Syntax SelfTy MacroArgs PropsMacroArgs Conversions.
From Verif Require ListText PropsList.
Import ListNotations.
Local Open Scope nat_scope.

Lemma ascii_lt_trans a b : ascii_lt a b -> forall c, ascii_lt b c -> ascii_lt a c.
Proof.
  induction 1; intros c H'; inversion H'; subst; try (constructor; lia); try (constructor; auto; fail).
  all: try (constructor; auto).
Qed.
Lemma ascii_lt_irrefl a : ~ ascii_lt a a.
Proof. induction a as [|x a IH]; intros H; inversion H; subst; try lia. contradiction. Qed.
Lemma str_cmp_lt a b : str_cmp a b = Lt <-> ascii_lt a b.
Proof.
  pose proof (str_cmp_spec a b) as S. destruct (str_cmp a b); split; intros H; try discriminate; try reflexivity; try assumption.
  - subst. now apply ascii_lt_irrefl in H.
  - exfalso. eapply ascii_lt_irrefl, ascii_lt_trans; eauto.
Qed.

Lemma set_insert_in x l : forall y, In y (set_insert x l) <-> y = x \/ In y l.
Proof.
  induction l as [|z l IH]; intros y; cbn [set_insert]; [cbn; intuition|]. pose proof (str_cmp_spec x z) as S. destruct (str_cmp x z).
  - subst z. cbn [In]. intuition.
  - cbn [In]. intuition.
  - cbn [In]. rewrite IH. intuition.
Qed.
Lemma set_insert_sorted x l : StronglySorted ascii_lt l -> StronglySorted ascii_lt (set_insert x l).
Proof.
  induction 1 as [|y l S IH F]; cbn [set_insert]; [repeat constructor|]. pose proof (str_cmp_spec x y) as C. destruct (str_cmp x y).
  - now constructor.
  - constructor; [now constructor|]. constructor; [exact C|]. rewrite Forall_forall in *. intros z I. eapply ascii_lt_trans; eauto.
  - constructor; [exact IH|]. rewrite Forall_forall in *. intros z I. apply set_insert_in in I as [->|I]; auto.
Qed.
Lemma set_of_spec l : StronglySorted ascii_lt (set_of l) /\ forall y, In y (set_of l) <-> In y l.
Proof.
  unfold set_of. assert (H : forall s, StronglySorted ascii_lt s -> StronglySorted ascii_lt (fold_left (fun s x => set_insert x s) l s) /\
    forall y, In y (fold_left (fun s x => set_insert x s) l s) <-> In y l \/ In y s).
  { induction l as [|x l IH]; intros s S; cbn [fold_left]; [split; [exact S|cbn; intuition]|].
    destruct (IH (set_insert x s)) as (A & B); [now apply set_insert_sorted|]. split; [exact A|]. intros y. rewrite B, set_insert_in. cbn [In]. intuition. }
  destruct (H [] ltac:(constructor)) as (A & B). split; [exact A|]. intros y. rewrite B. cbn. intuition.
Qed.
Lemma sorted_unique (l l' : list str) : StronglySorted ascii_lt l -> StronglySorted ascii_lt l' -> (forall y, In y l <-> In y l') -> l = l'.
Proof.
  intros S. revert l'. induction S as [|x l S IH F]; intros l' S' E.
  - destruct l' as [|y l']; [reflexivity|]. destruct (proj2 (E y)); now left.
  - destruct S' as [|y l' S' F']; [destruct (proj1 (E x)); now left|]. rewrite Forall_forall in *.
    assert (x = y).
    { destruct (proj1 (E x) (or_introl eq_refl)) as [->|I]; [reflexivity|]. destruct (proj2 (E y) (or_introl eq_refl)) as [->|J]; [reflexivity|].
      exfalso. eapply ascii_lt_irrefl, ascii_lt_trans; [apply (F y J)|apply (F' x I)]. }
    subst y. f_equal. apply IH; [exact S'|]. intros z. split; intros I.
    + destruct (proj1 (E z) (or_intror I)) as [->|J]; [|exact J]. exfalso. eapply ascii_lt_irrefl, F, I.
    + destruct (proj2 (E z) (or_intror I)) as [->|J]; [|exact J]. exfalso. eapply ascii_lt_irrefl, F', I.
Qed.

Section Order.
  Variable print : list tok -> str.
  Definition earlier (e e' : list tok * (rty * bool)) : Prop := print (fst e) = print (fst e') \/ ascii_lt (print (fst e)) (print (fst e')).
  Lemma place_in e l : forall x, In x (place print e l) <-> x = e \/ In x l.
  Proof.
    induction l as [|y l IH]; intros x; cbn [place]; [cbn; intuition|]. destruct (str_cmp (print (fst e)) (print (fst y))); cbn [In]; rewrite ?IH; intuition.
  Qed.
  Lemma place_sorted e l : StronglySorted earlier l -> StronglySorted earlier (place print e l).
  Proof.
    induction 1 as [|y l S IH F]; cbn [place]; [repeat constructor|]. pose proof (str_cmp_spec (print (fst e)) (print (fst y))) as C.
    assert (K : earlier e y -> StronglySorted earlier (e :: y :: l)).
    { intros H. constructor; [now constructor|]. constructor; [exact H|]. rewrite Forall_forall in *. intros z I. specialize (F z I). unfold earlier in *.
      destruct H as [->|H]; [exact F|]. destruct F as [<-|F]; [now right|]. right. eapply ascii_lt_trans; eauto. }
    destruct (str_cmp (print (fst e)) (print (fst y))).
    - apply K. now left.
    - apply K. now right.
    - constructor; [exact IH|]. rewrite Forall_forall in *. intros z I. apply place_in in I as [->|I]; [now right|auto].
  Qed.
  Lemma in_order_in c : forall x, In x (in_order print c) <-> In x c.
  Proof. unfold in_order. induction c as [|e c IH]; intros x; cbn [fold_right]; [tauto|]. rewrite place_in, IH. cbn [In]. intuition. Qed.
  Lemma in_order_sorted c : StronglySorted earlier (in_order print c).
  Proof. unfold in_order. induction c as [|e c IH]; cbn [fold_right]; [constructor|now apply place_sorted]. Qed.

  Lemma find_first {A} (R : A -> A -> Prop) (f : A -> bool) l x : StronglySorted R l -> find f l = Some x ->
    f x = true /\ In x l /\ forall y, In y l -> f y = true -> y = x \/ R x y.
  Proof.
    induction 1 as [|y l S IH F]; cbn [find]; [discriminate|]. destruct (f y) eqn:E.
    - intros Q. injection Q as <-. split; [exact E|]. split; [now left|]. rewrite Forall_forall in F. intros z [->|I] _; auto.
    - intros Q. destruct (IH Q) as (A1 & A2 & A3). split; [exact A1|]. split; [now right|]. intros z [<-|I] T; [congruence|auto].
  Qed.
End Order.

Lemma map_typed_cands c0 : forall t c cands x e, (forall k, tget c k = tget c0 k) -> forall k,
  In k (snd (fst (map_typed_arg c cands x e t))) <-> In k cands \/ offers (fun k => tget c0 k <> None) t k.
Proof.
  assert (One : forall cands t k, (offers (fun k => tget c0 k <> None) t k -> k = toks t) -> (In k (cands ++ [toks t]) <-> In k cands \/ offers (fun k => tget c0 k <> None) t k)).
  { intros cands t k O. rewrite in_app_iff. cbn [In]. split; [intros [I|[<-|[]]]; [now left|right; constructor]|]. intros [I|I]; [now left|]. right. left. symmetry. auto. }
  induction t; intros c cands x e G k; cbn [map_typed_arg]; rewrite G;
    match goal with |- context [tget c0 (toks ?t)] => destruct (tget c0 (toks t)) as [to|] eqn:T end;
    try (cbn [fst snd]; apply One; intros O; inversion O; subst; try reflexivity; exfalso; match goal with H : ~ _ |- _ => apply H; rewrite T; discriminate end).
  assert (Leaf : (exists q lead segs, t = RPath q lead segs) \/ (exists t', t = RSlice t') -> In k (cands ++ [toks (RRef lt mut t)]) <-> In k cands \/ offers (fun k => tget c0 k <> None) (RRef lt mut t) k).
  { intros L. apply One. intros O. inversion O; subst; [reflexivity|].
    destruct L as [(q & lead & segs & ->)|(t' & ->)]; exfalso; match goal with H : context [_ <> _] |- _ => eapply H; reflexivity end. }
  assert (Deep : (forall q lead segs, t <> RPath q lead segs) -> (forall t', t <> RSlice t') ->
     In k (snd (fst (map_typed_arg c (cands ++ [toks (RRef lt mut t)]) x (EDeref e) t))) <-> In k cands \/ offers (fun k => tget c0 k <> None) (RRef lt mut t) k).
  { intros N1 N2. rewrite IHt by exact G. rewrite in_app_iff. cbn [In]. split.
    - intros [[I|[<-|[]]]|O]; [now left|right; constructor|right]. constructor; auto.
    - intros [I|O]; [now left; left|]. inversion O; subst; [left; right; now left|now right]. }
  destruct t; cbn [fst snd]; try (destruct (is_str _)); cbn [fst snd re_ref]; try (apply Leaf; left; do 3 eexists; reflexivity); try (apply Leaf; right; eexists; reflexivity);
    specialize (Deep ltac:(discriminate) ltac:(discriminate));
    match goal with |- context [map_typed_arg ?c ?l ?x ?e ?t] => change (map_typed_arg c l x e t) with (map_typed_arg c l x e t) in Deep; destruct (map_typed_arg c l x e t) as [[? ?] ?] end; exact Deep.
Qed.

Lemma finish_cands c0 c cands draws n x lab e t : (forall k, tget c k = tget c0 k) -> forall k,
  In k (snd (fst (fst (finish (c, cands, draws) n x lab e t)))) <-> In k cands \/ (n = 0 /\ offers (fun k => tget c0 k <> None) t k).
Proof.
  intros G k. unfold finish. destruct n.
  - pose proof (map_typed_cands c0 t c cands x e G k) as M. destruct (map_typed_arg c cands x e t) as [[c' cands'] m]. cbn [fst snd] in *. rewrite M. intuition.
  - cbn [fst snd]. intuition discriminate.
Qed.

Lemma map_arg_cands c0 tp self c cands draws a s r : (forall k, tget c k = tget c0 k) -> map_arg tp self (c, cands, draws) a = Ret (s, r) -> forall k,
  In k (snd (fst s)) <-> In k cands \/ exists t, attributes a = 0 /\ considered tp self a t /\ offers (fun k => tget c0 k <> None) t k.
Proof.
  intros G M k. unfold map_arg in M.
  assert (F : forall n x lab e t, finish (c, cands, snd x) n (fst x) lab e t = (s, r) -> attributes a = n -> considered tp self a t -> (forall t', considered tp self a t' -> t' = t) ->
     (In k (snd (fst s)) <-> In k cands \/ exists t, attributes a = 0 /\ considered tp self a t /\ offers (fun k => tget c0 k <> None) t k)).
  { intros n x lab e t F A C U. pose proof (finish_cands c0 c cands (snd x) n (fst x) lab e t G k) as Mk.
    rewrite F in Mk. cbn [fst] in Mk. rewrite Mk. split.
    - intros [I|[N O]]; [now left|right]. exists t. rewrite A. auto.
    - intros [I|(t' & N & C' & O)]; [now left|right]. apply U in C' as ->. rewrite <- A. auto. }
  destruct a as [n mut kind|n p t].
  - destruct (draw draws) as [d ds]. unfold receiver_type in M. destruct mut, self as [s0|]; try discriminate. cbn [bind] in M. apply ret_inj in M.
    apply (F n (anonymous d, ds) _ _ _ M eq_refl).
    + destruct kind; constructor; try reflexivity; discriminate.
    + intros t' C. inversion C; subst; [|now match goal with H : Some _ = Some _ |- _ => injection H as -> end].
      destruct kind; try (exfalso; match goal with H : forall _ _, _ <> _ |- _ => eapply H; reflexivity end); congruence.
  - apply bind_ret in M as (xd & P & M). apply bind_ret in M as (t1 & T & M). apply ret_inj in M.
    assert (E : expands tp self t t1) by (destruct self; [exact T|injection T as ->; reflexivity]).
    apply (F n xd _ _ _ M eq_refl); [now constructor|]. intros t' C. inversion C; subst. destruct self; cbn [expands] in *; congruence.
Qed.

Lemma map_args_cands c0 tp self : forall l c cands draws s rs, (forall k, tget c k = tget c0 k) -> map_args tp self (c, cands, draws) l = Ret (s, rs) -> forall k,
  In k (snd (fst s)) <-> In k cands \/ exists a t, In a l /\ attributes a = 0 /\ considered tp self a t /\ offers (fun k => tget c0 k <> None) t k.
Proof.
  induction l as [|a l IH]; intros c cands draws s rs G M k.
  - injection M as <- <-. cbn [fst snd]. split; [now left|]. intros [I|(? & ? & [] & _)]. exact I.
  - cbn [map_args] in M. apply bind_ret in M as ([s1 r] & M1 & M). apply bind_ret in M as ([s2 rs'] & M2 & M). cbn [fst snd] in M, M2. injection M as <- <-.
    destruct (map_arg_marks c0 _ _ _ _ _ _ _ _ G M1) as (_ & G1 & _). pose proof (map_arg_cands c0 _ _ _ _ _ _ _ _ G M1 k) as K1.
    destruct s1 as [[c1 cands1] draws1]. cbn [fst snd] in *. rewrite (IH c1 cands1 draws1 s2 rs' G1 M2 k), K1. split.
    + intros [[I|(t & X)]|(a' & t & I & X)]; [now left|right; exists a, t|right; exists a', t]; (split; [|exact X]); [now left|now right].
    + intros [I|(a' & t & [->|I] & X)]; [left; now left|left; right; eauto|right; eauto].
Qed.

(** What is compared with the conversions, over all arguments. *)
Definition offered (tp : option rpath) (self : option rty) (opts : list (list rty)) (l : list fn_arg) (k : list tok) : Prop :=
  exists a t, In a l /\ attributes a = 0 /\ considered tp self a t /\ offers (key opts) t k.

Lemma insert_keys c k v : NoDup (map fst c) -> NoDup (map fst (tinsert c k v)) /\ forall x, In x (map fst (tinsert c k v)) -> x = k \/ In x (map fst c).
Proof.
  induction c as [|[k' e] c IH]; cbn [tinsert map fst]; intros N.
  - split; [repeat constructor; intros []|intros x [<-|[]]; now left].
  - inversion N as [|? ? N1 N2]; subst. destruct (toks_eqb k' k) eqn:E; cbn [map fst].
    + split; [now constructor|]. intros x [<-|I]; right; [now left|now right].
    + destruct (IH N2) as (A & B). split.
      * constructor; [|exact A]. intros I. apply B in I as [->|I]; [|contradiction]. rewrite toks_eqb_refl in E. discriminate.
      * intros x [<-|I]; [right; now left|]. apply B in I as [->|I]; [now left|right; now right].
Qed.
Lemma make_keys opts : forall c c', NoDup (map fst c) -> make_table opts c = Ret c' -> NoDup (map fst c').
Proof.
  induction opts as [|o opts IH]; intros c c' N E; [injection E as <-; exact N|]. cbn [make_table] in E. destruct o as [|a [|b [|]]]; try discriminate.
  eapply IH; [|exact E]. now apply insert_keys.
Qed.
Lemma tget_in c k to b : NoDup (map fst c) -> In (k, (to, b)) c -> tget c k = Some to.
Proof.
  induction c as [|[k' [v b']] c IH]; intros N I; [destruct I|]. destruct I as [E|I]; cbn [tget].
  - injection E as -> -> ->. now rewrite toks_eqb_refl.
  - inversion N as [|? ? N1 N2]; subst. destruct (toks_eqb k' k) eqn:E; [|auto]. apply toks_eqb_spec in E. subst k'. destruct N1. apply in_map_iff. exists (k, (to, b)). auto.
Qed.

(** The state of an expansion that gets as far as the check. *)
Lemma checked_state tp self opts draws l c s rs :
  make_table opts [] = Ret c -> map_args tp self (c, [], draws) l = Ret (s, rs) ->
  (forall k to b, In (k, (to, b)) (fst (fst s)) -> conversion opts k = Some to /\ (b = true <-> offered tp self opts l k)) /\
  (forall k, key opts k -> exists to b, In (k, (to, b)) (fst (fst s))) /\
  (forall k, In k (snd (fst s)) <-> offered tp self opts l k).
Proof.
  intros C M.
  assert (G : forall k, tget c k = conversion opts k) by (intros k; rewrite (make_table_get _ _ _ k C); now destruct (conversion opts k)).
  assert (E : forall k, tget c k <> None <-> key opts k) by (intros k'; now rewrite G, <- conversion_key).
  assert (KEY : forall t k, offers (fun k => tget c k <> None) t k <-> offers (key opts) t k).
  { intros t k. split; intros O; induction O; constructor; auto; rewrite ?E; auto. now rewrite <- E. }
  pose proof (make_keys opts [] c ltac:(constructor) C) as ND. pose proof (make_unused opts [] c ltac:(constructor) C) as NU.
  destruct (map_args_marks c tp self l c [] draws s rs (fun k => eq_refl) M) as (_ & K).
  assert (OFF : forall k, (exists a t, In a l /\ attributes a = 0 /\ considered tp self a t /\ offers (fun k => tget c k <> None) t k) <-> offered tp self opts l k).
  { intros k. unfold offered. split; intros (a & t & X1 & X2 & X3 & X4); exists a, t; repeat split; auto; now apply KEY. }
  assert (K' : marks (offered tp self opts l) c (fst (fst s))) by (eapply marks_ext; [|exact K]; intros k _; apply OFF). clear K.
  split; [|split].
  - intros k to b I. assert (H : exists b0, In (k, (to, b0)) c /\ b0 = false /\ (b = true <-> b0 = true \/ offered tp self opts l k)).
    { clear - K' I NU. unfold marks in K'. induction K' as [|[k1 [v1 b1]] [k2 [v2 b2]] c c' (A & B & D) K' IH]; [destruct I|]. cbn [fst snd] in *. subst k2 v2.
      inversion NU as [|? ? U NU']; subst. destruct I as [I|I].
      - injection I as -> -> ->. exists b1. split; [now left|]. split; [exact U|]. exact D.
      - destruct (IH NU' I) as (b0 & J & R). exists b0. split; [now right|exact R]. }
    destruct H as (b0 & J & -> & B). split; [rewrite <- G; eapply tget_in; eauto|]. rewrite B. intuition discriminate.
  - intros k HK. apply E, in_table in HK as ([k' [to b0]] & I & Q). cbn [fst] in Q. subst k'.
    clear - K' I. unfold marks in K'. induction K' as [|[k1 [v1 b1]] [k2 [v2 b2]] c c' (A & B & D) K' IH]; [destruct I|]. cbn [fst snd] in *. subst k2 v2.
    destruct I as [I|I]; [injection I as -> -> ->; exists to, b2; now left|]. destruct (IH I) as (to' & b & J). exists to', b. now right.
  - intros k. rewrite (map_args_cands c tp self l c [] draws s rs (fun k => eq_refl) M k), OFF. cbn [In]. intuition.
Qed.

(** There is a message exactly if options and arguments are in order and some conversion meets none
    of the types it is compared with; so an expansion that gets a message is one that panics. *)
Theorem C129_exact :
  forall (printable : bytes -> bool) (print : list tok -> str) (tp : option rpath) (self : option rty) (opts : list (list rty)) (draws : list N) (l : list fn_arg),
    (message printable print tp self opts draws l <> None <->
     Forall (fun o => List.length o = 2) opts /\ Forall (acceptable tp self) l /\ exists k, key opts k /\ ~ offered tp self opts l k) /\
    (message printable print tp self opts draws l <> None -> expand_args tp self opts draws l = Panic).
Proof.
  intros pr print tp self opts draws l. unfold message, expand_args.
  destruct (make_table opts []) as [c|?|] eqn:C; cbn [bind].
  2,3: split; [|contradiction]; split; [contradiction|]; intros (O & _); apply (make_table_total opts []) in O as (c' & C'); congruence.
  assert (O : Forall (fun o => List.length o = 2) opts) by (apply (make_table_total opts []); eauto).
  destruct (map_args tp self (c, [], draws) l) as [[s rs]|?|] eqn:M; cbn [bind fst snd].
  2,3: split; [|contradiction]; split; [contradiction|]; intros (_ & A & _); destruct (acceptable_map_args tp self l (c, [], draws) A) as (s & rs & M'); congruence.
  destruct (checked_state _ _ _ _ _ _ _ _ C M) as (S1 & S2 & S3). destruct (map_args_marks c tp self l c [] draws s rs (fun k => eq_refl) M) as (A & _).
  assert (U : unused_text pr print (fst (fst s)) (snd (fst s)) <> None <-> exists k to, In (k, (to, false)) (fst (fst s))).
  { unfold unused_text. destruct (find (fun e => negb (snd (snd e))) (in_order print (fst (fst s)))) as [[k [to b]]|] eqn:F.
    - split; [|discriminate]. intros _. apply find_some in F as (I & B). apply in_order_in in I. cbn [snd] in B. apply negb_true_iff in B. subst b. eauto.
    - split; [contradiction|]. intros (k & to & I). apply (in_order_in print) in I. apply (find_none _ _ F) in I. discriminate. }
  split.
  - rewrite U. split.
    + intros (k & to & I). split; [exact O|]. split; [exact A|]. exists k. destruct (S1 _ _ _ I) as (T & B). split; [apply conversion_key; congruence|].
      intros H. apply B in H. discriminate.
    + intros (_ & _ & k & K & N). destruct (S2 k K) as (to & b & I). exists k, to. destruct b; [|exact I]. destruct N. now apply (S1 _ _ _ I).
  - intros H. apply U in H as (k & to & I). destruct (all_used (fst (fst s))) eqn:AU; [|reflexivity]. unfold all_used in AU. rewrite forallb_forall in AU.
    specialize (AU _ I). discriminate.
Qed.
Print Assumptions C129_exact.

(** The message names the conversion with the least text of those that meet none, with the target
    given last for it, and lists exactly the types compared, each once and in order; the
    conversion's type is not among them. *)
Theorem C129_text :
  forall (printable : bytes -> bool) (print : list tok -> str) (tp : option rpath) (self : option rty) (opts : list (list rty)) (draws : list N) (l : list fn_arg) (m : str),
    (forall k k', print k = print k' -> k = k') ->
    message printable print tp self opts draws l = Some m ->
    exists k to cands,
      conversion opts k = Some to /\ ~ offered tp self opts l k /\
      (forall k', key opts k' -> ~ offered tp self opts l k' -> k' = k \/ ascii_lt (print k) (print k')) /\
      StronglySorted ascii_lt cands /\ (forall y, In y cands <-> exists k', offered tp self opts l k' /\ y = print k') /\
      ~ In (print k) cands /\
      m = lit "Conversion """ ++ print k ++ lit """ -> """ ++ print (toks to) ++ lit """ does not apply to the following candidates: " ++
          match cands with
          | [] => lit "{}"
          | _ => lit "{" ++ [LF] ++ List.concat (map (fun x => ListText.item (ListText.debug_text printable false x)) cands) ++ lit "}"
          end.
Proof.
  intros pr print tp self opts draws l m Inj E. unfold message in E.
  destruct (make_table opts []) as [c|?|] eqn:C; try discriminate. destruct (map_args tp self (c, [], draws) l) as [[s rs]|?|] eqn:M; try discriminate.
  destruct (checked_state _ _ _ _ _ _ _ _ C M) as (S1 & S2 & S3). unfold unused_text in E.
  destruct (find (fun e => negb (snd (snd e))) (in_order print (fst (fst s)))) as [[k [to b]]|] eqn:F; [|discriminate].
  apply (find_first (earlier print)) in F as (B & I & L); [|apply in_order_sorted]. cbn [snd] in B. apply negb_true_iff in B. subst b. apply in_order_in in I.
  destruct (S1 _ _ _ I) as (T & OF). destruct (set_of_spec (map print (snd (fst s)))) as (SS & SI).
  assert (N : ~ offered tp self opts l k) by (intros H; apply OF in H; discriminate).
  assert (CI : forall y, In y (set_of (map print (snd (fst s)))) <-> exists k', offered tp self opts l k' /\ y = print k').
  { intros y. rewrite SI, in_map_iff. split; intros (k' & A & D); exists k'; [rewrite <- S3; auto|split; [auto|now apply S3]]. }
  exists k, to, (set_of (map print (snd (fst s)))). split; [exact T|]. split; [exact N|]. split.
  - intros k' K' N'. destruct (S2 k' K') as (to' & b' & I'). destruct b'; [destruct N'; now apply (S1 _ _ _ I')|].
    destruct (L (k', (to', false))) as [Q|[Q|Q]]; [now apply in_order_in|reflexivity|left; now injection Q|left; symmetry; now apply Inj|now right].
  - split; [exact SS|]. split; [exact CI|]. split.
    + intros H. apply CI in H as (k' & O & Q). apply Inj in Q. now subst.
    + symmetry. now injection E.
Qed.
Print Assumptions C129_text.

(** The message does not depend on the order in which the conversions are given, nor on those that
    later ones replace. *)
Theorem C129_order :
  forall (printable : bytes -> bool) (print : list tok -> str) (tp : option rpath) (self : option rty) (opts opts' : list (list rty)) (draws : list N) (l : list fn_arg),
    (forall k k', print k = print k' -> k = k') ->
    Forall (fun o => List.length o = 2) opts -> Forall (fun o => List.length o = 2) opts' -> (forall k, conversion opts k = conversion opts' k) ->
    message printable print tp self opts draws l = message printable print tp self opts' draws l.
Proof.
  intros pr print tp self opts opts' draws l Inj O O' E.
  assert (K : forall k, key opts k <-> key opts' k) by (intros k; now rewrite <- !conversion_key, E).
  assert (OF : forall k, offered tp self opts l k <-> offered tp self opts' l k).
  { intros k. unfold offered. assert (X : forall t, offers (key opts) t k <-> offers (key opts') t k).
    { intros t. split; intros H; induction H; constructor; auto; [now rewrite <- K|now rewrite K]. }
    split; intros (a & t & X1 & X2 & X3 & X4); exists a, t; repeat split; auto; now apply X. }
  destruct (message pr print tp self opts draws l) as [m|] eqn:M; destruct (message pr print tp self opts' draws l) as [m'|] eqn:M'; [| | |reflexivity].
  - destruct (C129_text _ _ _ _ _ _ _ _ Inj M) as (k & to & cs & T & N & L & S & I & _ & ->).
    destruct (C129_text _ _ _ _ _ _ _ _ Inj M') as (k' & to' & cs' & T' & N' & L' & S' & I' & _ & ->).
    assert (k' = k).
    { assert (K1 : key opts' k') by (apply conversion_key; congruence). assert (K2 : key opts k) by (apply conversion_key; congruence).
      destruct (L k') as [Q|Q]; [now apply K|now rewrite OF|exact Q|]. destruct (L' k) as [Q'|Q']; [now apply K|now rewrite <- OF|now symmetry|].
      exfalso. eapply ascii_lt_irrefl, ascii_lt_trans; eauto. }
    subst k'. assert (to' = to) by (rewrite E in T; congruence). subst to'.
    assert (cs' = cs).
    { apply sorted_unique; [assumption|assumption|]. intros y. rewrite I, I'. split; intros (k' & A & B); exists k'; rewrite OF in *; auto. }
    subst cs'. reflexivity.
  - exfalso. destruct (C129_exact pr print tp self opts draws l) as (X & _). destruct (C129_exact pr print tp self opts' draws l) as (X' & _).
    apply X'; [|exact M']. destruct (proj1 X) as (_ & A & k & HK & HN); [congruence|]. split; [exact O'|]. split; [exact A|]. exists k. rewrite <- K, <- OF. auto.
  - exfalso. destruct (C129_exact pr print tp self opts draws l) as (X & _). destruct (C129_exact pr print tp self opts' draws l) as (X' & _).
    apply X; [|exact M]. destruct (proj1 X') as (_ & A & k & HK & HN); [congruence|]. split; [exact O|]. split; [exact A|]. exists k. rewrite K, OF. auto.
Qed.
Print Assumptions C129_order.

Lemma set_of_one (cands : list str) x : StronglySorted ascii_lt cands -> (forall y, In y cands <-> y = x) -> cands = [x].
Proof. intros S E. apply sorted_unique; [exact S|repeat constructor|]. intros y. rewrite E. cbn. intuition. Qed.

(** If one type only is compared and its text is ordinary, the expression of the test finds it in
    the message. *)
Theorem C129_found :
  forall (printable : bytes -> bool) (print : list tok -> str) (tp : option rpath) (self : option rty) (opts : list (list rty)) (draws : list N) (l : list fn_arg) (m : str) (x : list tok),
    (forall k k', print k = print k' -> k = k') ->
    message printable print tp self opts draws l = Some m ->
    (forall k, offered tp self opts l k <-> k = x) -> PropsList.ordinary (print x) ->
    exists k to, conversion opts k = Some to /\ k <> x /\ reports (print k) (print (toks to)) (print x) m.
Proof.
  intros pr print tp self opts draws l m x Inj M O P. destruct (C129_text _ _ _ _ _ _ _ _ Inj M) as (k & to & cs & T & N & _ & S & I & _ & ->).
  exists k, to. split; [exact T|]. split; [intros ->; apply N; now apply O|].
  rewrite (set_of_one cs (print x) S) by (intros y; rewrite I; split; [intros (k' & A & ->); apply O in A; now subst|intros ->; exists x; split; [now apply O|reflexivity]]).
  exists ([LF] ++ lit "    "), [LF]. split; [repeat constructor; (now left) || (now right)|]. split; [repeat constructor; now right|].
  cbn [map List.concat]. rewrite app_nil_r, PropsList.C111_ordinary by exact P. unfold ListText.item.
  assert (Q : (ListText.quote :: print x ++ [ListText.quote]) ++ lit "," ++ [LF] = (lit """" ++ print x ++ lit """,") ++ LF :: []).
  { rewrite <- !app_assoc. change (lit """" ++ print x ++ lit """," ++ [LF]) with (ListText.quote :: print x ++ lit """," ++ [LF]).
    cbn [app]. f_equal. rewrite <- app_assoc. reflexivity. }
  rewrite Q, PropsList.pad_line.
  - change (ListText.pad true []) with (@nil ascii). rewrite <- !app_assoc. reflexivity.
  - intros H. apply in_app_or in H as [[H|[]]|H]; [discriminate|]. apply in_app_or in H as [H|[H|[H|[]]]]; try discriminate.
    unfold PropsList.ordinary in P. rewrite Forall_forall in P. destruct (P _ H) as (B & _). cbn in B. lia.
Qed.
Print Assumptions C129_found.

(** The case of the test, and two conversions that meet none of two arguments. *)
Example C129_example :
  let print (l : list tok) := join (lit " ") (map (fun t => match t with Tk s => s | Grp c _ => [c] end) l) in
  let arg x t := Typed 0 (PatIdent (lit x) None) (rname t) in
  message (fun _ => true) print None None [[rname "Y"; rname "Z"]] [] [arg "x" "X"]%string =
    Some (lit "Conversion ""Y"" -> ""Z"" does not apply to the following candidates: {" ++ [LF] ++ lit "    ""X""," ++ [LF] ++ lit "}") /\
  message (fun _ => true) print None None [[rname "Y"; rname "Z"]; [rname "B"; rname "C"]; [rname "A"; rname "D"]; [rname "B"; rname "E"]] []
      [arg "x" "X"; arg "y" "W"; arg "z" "X"; arg "a" "A"]%string =
    Some (lit "Conversion ""B"" -> ""E"" does not apply to the following candidates: {" ++ [LF] ++ lit "    ""A""," ++ [LF] ++ lit "    ""W""," ++ [LF] ++ lit "    ""X""," ++ [LF] ++ lit "}") /\
  message (fun _ => true) print None None [[rname "Y"; rname "Z"]] [] [] =
    Some (lit "Conversion ""Y"" -> ""Z"" does not apply to the following candidates: {}") /\
  message (fun _ => true) print None None [[rname "Y"; rname "Z"]] [] [arg "x" "Y"]%string = None.
Proof. vm_compute. repeat split. Qed.
