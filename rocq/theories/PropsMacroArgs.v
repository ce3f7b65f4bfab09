(** C20, C21 and C22: the arguments of a target. *)
From Coq Require Import List Ascii String Bool Arith NArith Lia Permutation.
From Verif Require Import Base Decimal Syntax SelfTy MacroArgs.
Import ListNotations.
Local Open Scope nat_scope.

(** ** Specification *)

(** The type after expansion of [Self] (C26); outside an impl types stay as they are. *)
Definition expands (tp : option rpath) (self : option rty) (t t' : rty) : Prop :=
  match self with Some s => expand_self tp s t = Ret t' | None => t' = t end.

(** The parameter binds the variable [x], of declared type [t], to the whole argument. *)
Inductive binds (tp : option rpath) (self : option rty) : fn_arg -> str -> rty -> Prop :=
  | b_self n m s : self = Some s -> binds tp self (Receiver n m ByValue) (lit "self") s
  | b_ref n m s lt mut : self = Some s -> binds tp self (Receiver n m (ByRef lt mut)) (lit "self") (RRef lt mut s)
  | b_typed n m t t' : expands tp self t t' -> binds tp self (Receiver n m (ByType t)) (lit "self") t'
  | b_ident n x t t' : expands tp self t t' -> binds tp self (Typed n (PatIdent x None) t) x t'.

Definition attributes (a : fn_arg) : nat := match a with Receiver n _ _ | Typed n _ _ => n end.
Definition typed_receiver (a : fn_arg) : Prop := exists n m t, a = Receiver n m (ByType t).

(** The conversion for a type: the last one given. *)
Fixpoint conversion (opts : list (list rty)) (k : list tok) : option rty :=
  match opts with
  | [] => None
  | o :: opts =>
      match conversion opts k, o with
      | Some v, _ => Some v
      | None, [key; value] => if toks_eqb (toks key) k then Some value else None
      | None, _ => None
      end
  end.

(** The parts of what is generated for an argument. *)
Definition stored_type (r : mapped_arg) : rty := fst (fst (m_mapped r)).
Definition ser (r : mapped_arg) : expr := snd (fst (m_mapped r)).
Definition de (r : mapped_arg) : expr := snd (m_mapped r).

(** The fields of [args]. *)
Fixpoint record (rs : list mapped_arg) (vs : list val) (x : str) : option (rty * val) :=
  match rs, vs with
  | r :: rs, v :: vs => if str_eqb (m_ident r) x then Some (stored_type r, v) else record rs vs x
  | _, _ => None
  end.

(** ** Proofs about the model *)

Lemma toks_eqb_neq a b : toks_eqb a b = false -> a <> b.
Proof. intros E ->. rewrite toks_eqb_refl in E. discriminate. Qed.

Lemma tget_insert c k v k' : tget (tinsert c k v) k' = if toks_eqb k k' then Some v else tget c k'.
Proof.
  induction c as [|[a [u b]] c IH]; [reflexivity|]. cbn [tinsert]. destruct (toks_eqb a k) eqn:E; cbn [tget].
  - apply toks_eqb_spec in E as ->. destruct (toks_eqb k k'); reflexivity.
  - rewrite IH. destruct (toks_eqb a k') eqn:E'; [|reflexivity]. apply toks_eqb_spec in E' as ->.
    destruct (toks_eqb k k') eqn:E2; [|reflexivity]. apply toks_eqb_spec in E2 as ->. rewrite toks_eqb_refl in E. discriminate.
Qed.

Lemma make_table_get opts : forall c c' k, make_table opts c = Ret c' -> tget c' k = match conversion opts k with Some v => Some v | None => tget c k end.
Proof.
  induction opts as [|o opts IH]; intros c c' k E; [injection E as ->; reflexivity|]. cbn [make_table] in E.
  destruct o as [|key [|value [|]]]; try discriminate. rewrite (IH _ _ k E). cbn [conversion]. destruct (conversion opts k); [reflexivity|].
  rewrite tget_insert. destruct (toks_eqb (toks key) k); reflexivity.
Qed.

Lemma bind_ret A B (x : outcome A) (f : A -> outcome B) b : bind x f = Ret b -> exists a, x = Ret a /\ f a = Ret b.
Proof. destruct x; cbn; intros E; [eauto|discriminate|discriminate]. Qed.

Lemma ret_inj A (a b : A) : Ret a = Ret b -> a = b.
Proof. now intros [= ->]. Qed.

(** What [map_arg] gives. *)
Lemma finish_spec c cands draws n x lab e t s r : finish (c, cands, draws) n x lab e t = (s, r) ->
  (forall k, tget (fst (fst s)) k = tget c k) /\ snd s = draws /\ m_type r = t /\ m_ident r = x /\ m_label r = lab /\ m_attrs r = n /\
  m_mapped r = match n with 0 => snd (map_typed_arg c cands x e t) | _ => (t, ECloneAs t e, EField x) end.
Proof.
  unfold finish. destruct n.
  - pose proof (map_typed_get c cands x e t) as G. destruct (map_typed_arg c cands x e t) as [[c' cands'] m]. intros E. injection E as <- <-. cbn in *. auto 10.
  - intros E. injection E as <- <-. cbn. auto 10.
Qed.

Lemma map_arg_binds tp self c cands draws a s r x t : map_arg tp self (c, cands, draws) a = Ret (s, r) -> binds tp self a x t -> ~ typed_receiver a ->
  (forall k, tget (fst (fst s)) k = tget c k) /\ m_type r = t /\
  m_mapped r = match attributes a with 0 => snd (map_typed_arg c cands (m_ident r) (EVar x) t) | _ => (t, ECloneAs t (EVar x), EField (m_ident r)) end.
Proof.
  intros M B N. destruct B as [n m s0 E|n m s0 lt mut E|n m t0 t' E|n x t0 t' E]; unfold map_arg in M; cbn [attributes].
  - subst self. destruct (draw draws) as [d ds]. cbn [receiver_type] in M. destruct m; [discriminate|]. cbn [bind] in M. apply ret_inj in M.
    apply finish_spec in M as (G & _ & T & I & _ & _ & X). rewrite I. auto.
  - subst self. destruct (draw draws) as [d ds]. cbn [receiver_type] in M. destruct m; [discriminate|]. cbn [bind] in M. apply ret_inj in M.
    apply finish_spec in M as (G & _ & T & I & _ & _ & X). rewrite I. auto.
  - destruct N. do 3 eexists. reflexivity.
  - cbn [pat_idents bind fst snd] in M. apply bind_ret in M as (t1 & T & M). apply ret_inj in M.
    assert (t1 = t') as -> by (destruct self; cbn [expands] in E; congruence).
    apply finish_spec in M as (G & _ & T2 & I & _ & _ & X). rewrite I. auto.
Qed.

Lemma storable_ext w f g t : (forall k, f k = g k) -> storable w f t -> storable w g t.
Proof.
  intros E S. induction S; [eapply st_convert|apply st_clone|apply st_str|apply st_slice|apply st_ref_path|apply st_ref]; eauto; rewrite <- E; auto.
Qed.

(** ** C20 *)

Definition whole (w : world) (tp : option rpath) (self : option rty) (conv : list tok -> option rty) (vars : str -> option (ty * val)) (a : fn_arg) (v : val) : Prop :=
  exists x t, binds tp self a x t /\ vars x = Some (sem t, v) /\ of_type v (sem t) /\ ~ typed_receiver a /\
    match attributes a with 0 => storable w conv t | _ => clonable w t \/ exists t', sem t = TRef false t' end.

(** One argument: the stored value exists, and from it the argument is rebuilt. *)
Theorem C20_round_trip :
  forall (w : world) (c : table) (x : str) (t : rty) (v : val) (stored : rty) (s d : expr),
    storable w (tget c) t -> of_type v (sem t) ->
    snd (map_typed_arg c [] x (EVar x) t) = (stored, s, d) ->
    exists v', ev w (fun y => if str_eqb y x then Some (sem t, v) else None) (fun _ => None) s (sem stored) v' /\
      ev w (fun _ => None) (fun y => if str_eqb y x then Some (stored, v') else None) d (sem t) v.
Proof.
  intros w c x t v stored s d S V M.
  destruct (map_typed_ev w (fun y => if str_eqb y x then Some (sem t, v) else None) t c [] x (EVar x) v S V ltac:(constructor; now rewrite str_eqb_same) _ _ _ M) as (v' & A & B).
  exists v'. split; [exact A|]. apply B. now rewrite str_eqb_same.
Qed.
Print Assumptions C20_round_trip.

(** Nothing else can be stored or rebuilt. *)
Theorem C20_unique :
  forall (w : world) (c : table) (x : str) (t : rty) (stored : rty) (s d : expr) (vars : str -> option (ty * val)) (fields : str -> option (rty * val)),
    snd (map_typed_arg c [] x (EVar x) t) = (stored, s, d) ->
    (forall u u' v v', ev w vars fields s u v -> ev w vars fields s u' v' -> u = u' /\ v = v') /\
    (forall u v v', ev w vars fields d u v -> ev w vars fields d u v' -> v = v').
Proof.
  intros w c x t stored s d vars fields M. pose proof (map_typed_shape c t [] x (EVar x) I) as S. rewrite M in S. destruct S as [S1 S2]. split.
  - intros. eapply ev_unique; eauto.
  - intros. eapply rebuilds_unique; eauto.
Qed.
Print Assumptions C20_unique.

Lemma record_app rs1 rs2 vs1 vs2 x : List.length rs1 = List.length vs1 ->
  record (rs1 ++ rs2) (vs1 ++ vs2) x = match record rs1 vs1 x with Some p => Some p | None => record rs2 vs2 x end.
Proof.
  revert vs1. induction rs1 as [|r rs1 IH]; intros [|v vs1] L; try discriminate; [reflexivity|]. cbn [app record].
  destruct (str_eqb (m_ident r) x); [reflexivity|]. apply IH. now injection L.
Qed.
Lemma record_none rs vs x : ~ In x (map m_ident rs) -> record rs vs x = None.
Proof.
  revert vs. induction rs as [|r rs IH]; intros [|v vs] N; try reflexivity. cbn [record]. destruct (str_eqb (m_ident r) x) eqn:E.
  - apply str_eqb_eq in E. destruct N. now left.
  - apply IH. intros I. apply N. now right.
Qed.

(** The whole argument list: every stored value exists, and a call with the rebuilt
    arguments passes the original values. *)
Theorem C20_call :
  forall (w : world) (tp : option rpath) (self : option rty) (opts : list (list rty)) (draws : list N) (l : list fn_arg)
         (rs : list mapped_arg) (vars : str -> option (ty * val)) (vals : list val),
    expand_args tp self opts draws l = Ret rs -> NoDup (map m_ident rs) ->
    Forall2 (whole w tp self (conversion opts) vars) l vals ->
    Forall2 (fun a r => exists x, binds tp self a x (m_type r)) l rs /\
    exists stored,
      Forall2 (fun r v => ev w vars (fun _ => None) (ser r) (sem (stored_type r)) v) rs stored /\
      Forall2 (fun r v => ev w (fun _ => None) (record rs stored) (de r) (sem (m_type r)) v) rs vals.
Proof.
  intros w tp self opts draws l rs vars vals E ND W. unfold expand_args in E. apply bind_ret in E as (c & C & E). apply bind_ret in E as ([s rs'] & M & E).
  cbn [fst snd] in E. destruct (all_used _); [|discriminate]. injection E as ->.
  assert (G : forall k, tget c k = conversion opts k) by (intros k; rewrite (make_table_get _ _ _ k C); now destruct (conversion opts k)). clear C.
  assert (A : forall l vals rs c cands draws s, (forall k, tget c k = conversion opts k) -> map_args tp self (c, cands, draws) l = Ret (s, rs) ->
      Forall2 (whole w tp self (conversion opts) vars) l vals ->
      Forall2 (fun a r => exists x, binds tp self a x (m_type r)) l rs /\
      exists stored, Forall2 (fun r v => ev w vars (fun _ => None) (ser r) (sem (stored_type r)) v) rs stored /\
        Forall2 (fun r p => forall fields, fields (m_ident r) = Some (stored_type r, fst p) -> ev w (fun _ => None) fields (de r) (sem (m_type r)) (snd p)) rs (combine stored vals) /\
        List.length stored = List.length vals).
  { clear. induction l as [|a l IH]; intros vals rs c cands draws s G M W.
    - injection M as <- <-. inversion W; subst. split; [constructor|]. exists []. repeat split; constructor.
    - inversion W as [|? v ? vals' (x & t & B & X & V & N & S) W']; subst. cbn [map_args] in M. apply bind_ret in M as ([s1 r] & M1 & M).
      apply bind_ret in M as ([s2 rs'] & M2 & M). cbn [fst snd] in M, M2. injection M as <- <-.
      destruct (map_arg_binds _ _ _ _ _ _ _ _ _ _ M1 B N) as (G1 & T & R).
      destruct s1 as [[c1 cands1] draws1]. cbn [fst] in G1.
      destruct (IH vals' rs' c1 cands1 draws1 s2 ltac:(intros k; rewrite G1; apply G) M2 W') as (Bs & stored & S1 & S2 & L).
      assert (H : exists v', ev w vars (fun _ => None) (ser r) (sem (stored_type r)) v' /\
                 forall fields, fields (m_ident r) = Some (stored_type r, v') -> ev w (fun _ => None) fields (de r) (sem (m_type r)) v).
      { rewrite T. unfold ser, de, stored_type. destruct (attributes a).
        - destruct (m_mapped r) as [[st se] d]. cbn [fst snd].
          assert (S' : storable w (tget c) t) by (eapply storable_ext; [|exact S]; intros k; now rewrite G).
          destruct (map_typed_ev w vars t c cands (m_ident r) (EVar x) v S' V ltac:(now constructor) _ _ _ (eq_sym R)) as (v' & Y & Z).
          exists v'. split; [exact Y|]. intros fields F. now apply Z.
        - rewrite R. cbn [fst snd]. exists v. split; [constructor; [now constructor|exact S]|]. intros fields F. now constructor. }
      destruct H as (v' & H1 & H2). split; [constructor; [rewrite T; eauto|exact Bs]|].
      exists (v' :: stored). split; [now constructor|]. split; [constructor; [exact H2|exact S2]|cbn; now rewrite L]. }
  destruct (A l vals rs c [] draws s G M W) as (Bs & stored & S1 & S2 & L). split; [exact Bs|]. exists stored. split; [exact S1|].
  assert (R : forall pre prev rs stored vals, List.length pre = List.length prev -> NoDup (map m_ident (pre ++ rs)) -> List.length rs = List.length stored ->
     List.length stored = List.length vals ->
     Forall2 (fun r p => forall fields, fields (m_ident r) = Some (stored_type r, fst p) -> ev w (fun _ => None) fields (de r) (sem (m_type r)) (snd p)) rs (combine stored vals) ->
     Forall2 (fun r v => ev w (fun _ => None) (record (pre ++ rs) (prev ++ stored)) (de r) (sem (m_type r)) v) rs vals).
  { clear. intros pre prev rs. revert pre prev. induction rs as [|r rs IH]; intros pre prev [|v' stored] [|v vals] L ND L1 L2 F; try discriminate; [constructor|].
    inversion F as [|? ? ? ? F1 F2]; subst. cbn [fst snd] in F1. constructor.
    - apply F1. rewrite record_app by exact L. rewrite record_none.
      + cbn [record]. now rewrite str_eqb_same.
      + rewrite map_app in ND. cbn [map] in ND. apply NoDup_remove_2 in ND. intros I. apply ND. apply in_or_app. now left.
    - specialize (IH (pre ++ [r]) (prev ++ [v']) stored vals). rewrite <- !app_assoc in IH. apply IH; auto.
      rewrite !app_length, L. reflexivity. }
  apply (R [] [] rs stored vals); auto. clear -S1. induction S1; cbn; auto.
Qed.
Print Assumptions C20_call.

(** The expansion of [self: Box<Self>] stores a [Foo]; no value can be computed for it. *)
Theorem C20_typed_receiver_refuted :
  exists (self t : rty) (r : mapped_arg),
    expand_args None (Some self) [] [0%N] [Receiver 0 false (ByType t)] = Ret [r] /\
    binds None (Some self) (Receiver 0 false (ByType t)) (lit "self") (rapp "Box" [self]) /\
    forall w vars v, vars (lit "self") = Some (sem (rapp "Box" [self]), v) ->
      ~ exists v', ev w vars (fun _ => None) (ser r) (sem (stored_type r)) v'.
Proof.
  exists (rname "Foo"), (rapp "Box" [rname "Self"]). eexists. split; [reflexivity|]. split; [constructor; reflexivity|].
  intros w vars v V [v' H]. cbn in H. inversion H as [| | | |? ? ? H1 _|? ? ? ? H1 _| | | | | | |]; subst; inversion H1 as [? ? ? H2| | | | | | | | | | | |]; subst; cbn in V, H2; congruence.
Qed.
Print Assumptions C20_typed_receiver_refuted.

(** A receiver [mut self] is rejected in every impl. *)
Theorem C20_mut_self_refuted :
  forall tp self opts draws n kind l, expand_args tp self opts draws (Receiver n true kind :: l) = Panic.
Proof.
  intros. unfold expand_args. assert (T : (exists c, make_table opts [] = Ret c) \/ make_table opts [] = Panic).
  { generalize (@nil (list tok * (rty * bool))). induction opts as [|o opts IH]; intros c; [left; now exists c|]. cbn [make_table].
    destruct o as [|? [|? [|]]]; auto. }
  destruct T as [[c ->]| ->]; [|reflexivity]. cbn [bind map_args map_arg]. destruct (draw draws). reflexivity.
Qed.
Print Assumptions C20_mut_self_refuted.

(** For a parameter [(a, _): (u8, u8)] the field is computed from [a] alone. *)
Theorem C20_pattern_refuted :
  exists (t : rty) (r : mapped_arg),
    expand_args None None [] [] [Typed 0 (PatOther [PatIdent (lit "a") None; PatOther []]) t] = Ret [r] /\
    t = RTuple [rname "u8"; rname "u8"] /\
    forall w vars v, vars (lit "a") = Some (sem (rname "u8"), v) ->
      ~ exists v', ev w vars (fun _ => None) (ser r) (sem (stored_type r)) v'.
Proof.
  exists (RTuple [rname "u8"; rname "u8"]). eexists. split; [reflexivity|]. split; [reflexivity|].
  intros w vars v V [v' H]. cbn in H. inversion H as [| | | |? ? ? H1 _|? ? ? ? H1 _| | | | | | |]; subst; inversion H1 as [? ? ? H2| | | | | | | | | | | |]; subst; cbn in V, H2; congruence.
Qed.
Print Assumptions C20_pattern_refuted.

Lemma map_typed_nil x : forall t cs e, fst (fst (map_typed_arg [] cs x e t)) = [].
Proof.
  induction t; intros cs e; cbn [map_typed_arg tget]; try reflexivity. destruct t; try reflexivity; try (destruct (is_str _); reflexivity);
    match goal with |- context [map_typed_arg ?c ?l ?x ?e ?t] => specialize (IHt l e); destruct (map_typed_arg c l x e t) as [[? ?] ?] end; exact IHt.
Qed.
Lemma map_typed_stuck w vars fields c x : forall t cs e, (forall u v, ~ ev w vars fields e u v) ->
  forall u v, ~ ev w vars fields (snd (fst (snd (map_typed_arg c cs x e t)))) u v.
Proof.
  induction t; intros cs e N u v H; cbn [map_typed_arg] in H; destruct (tget c (toks _)); cbn [fst snd] in H; try (inversion H; subst; eapply N; eassumption).
  assert (N' : forall u v, ~ ev w vars fields (EDeref e) u v) by (intros ? ? X; inversion X; subst; eapply N; eassumption).
  destruct t; cbn [fst snd] in H; try (inversion H; subst; eapply N; eassumption);
    try (destruct (is_str _); cbn [fst snd re_ref] in H; inversion H; subst; (eapply N; eassumption) || (eapply N'; eassumption));
    match type of H with context [map_typed_arg ?c ?l ?x ?e ?t] => specialize (IHt l e N' u v); destruct (map_typed_arg c l x e t) as [[? ?] [[? ?] ?]] end; now apply IHt.
Qed.

(** For [_: t] the field is computed from a variable that is no parameter. *)
Theorem C20_wildcard_refuted :
  forall (t : rty) (n : N), exists r,
    expand_args None None [] [n] [Typed 0 (PatOther []) t] = Ret [r] /\
    forall w vars, vars (anonymous n) = None -> ~ exists u v', ev w vars (fun _ => None) (ser r) u v'.
Proof.
  intros t n. unfold expand_args. cbn [make_table bind map_args map_arg pat_idents List.concat map draw finish fst snd].
  pose proof (map_typed_nil (anonymous n) t [] (EVar (anonymous n))) as E.
  pose proof (fun w vars => map_typed_stuck w vars (fun _ => None) [] (anonymous n) t [] (EVar (anonymous n))) as S.
  destruct (map_typed_arg [] [] (anonymous n) (EVar (anonymous n)) t) as [[c cands] m]. cbn [fst snd] in E, S. subst c. cbn [fst snd bind all_used forallb].
  eexists. split; [reflexivity|]. intros w vars V [u [v H]]. cbn [ser m_mapped] in H. eapply S; [|exact H].
  intros u' v0 X. inversion X; subst. congruence.
Qed.
Print Assumptions C20_wildcard_refuted.

(** A parenthesised reference is stored as a reference, but cloned to what it refers to. *)
Theorem C20_parenthesised_refuted :
  exists (t : rty) (r : mapped_arg),
    expand_args None None [] [] [Typed 0 (PatIdent (lit "x") None) t] = Ret [r] /\ t = RParen (RRef None false (rname "u8")) /\
    forall w vars v, vars (lit "x") = Some (sem t, v) -> ~ exists v', ev w vars (fun _ => None) (ser r) (sem (stored_type r)) v'.
Proof.
  exists (RParen (RRef None false (rname "u8"))). eexists. split; [reflexivity|]. split; [reflexivity|].
  intros w vars v V [v' H]. cbn in H. inversion H.
Qed.
Print Assumptions C20_parenthesised_refuted.

(** [fn target(&mut self, names: &[&str], text: &&str, key: Key)] of an [impl Foo], with
    [convert = "Key, Stored"]. *)
Example C20_example :
  let w := {| clonable := fun _ => True; from_ref := fun _ _ v => Some (VVec [v]);
              into := fun _ _ v => match v with VVec [v] => Some v | _ => None end |} in
  let self := Some (rname "Foo") in
  let opts := [[rname "Key"; rname "Stored"]] in
  let str := RRef None false (rname "str") in
  let l := [Receiver 0 false (ByRef None true); Typed 0 (PatIdent (lit "names") None) (RRef None false (RSlice str));
            Typed 0 (PatIdent (lit "text") None) (RRef None false str); Typed 0 (PatIdent (lit "key") None) (rname "Key")] in
  let vals := [VRef (VOther 7); VRef (VSlice [VRef (VStr (lit "a"))]); VRef (VRef (VStr (lit "b"))); VOther 3] in
  exists rs vars, expand_args None self opts [5%N] l = Ret rs /\ NoDup (map m_ident rs) /\ Forall2 (whole w None self (conversion opts) vars) l vals /\
    map m_ident rs = [lit "_5"; lit "names"; lit "text"; lit "key"] /\
    map stored_type rs = [rname "Foo"; rapp "Vec" [str]; rname "String"; rname "Stored"] /\
    map de rs = [ERef true (EField (lit "_5")); EAsSlice false (EField (lit "names")); ERef false (EAsStr false (EField (lit "text"))); EInto (EField (lit "key"))].
Proof.
  cbv zeta. eexists.
  exists (fun x => if str_eqb x (lit "self") then Some (sem (RRef None true (rname "Foo")), VRef (VOther 7))
     else if str_eqb x (lit "names") then Some (sem (RRef None false (RSlice (RRef None false (rname "str")))), VRef (VSlice [VRef (VStr (lit "a"))]))
     else if str_eqb x (lit "text") then Some (sem (RRef None false (RRef None false (rname "str"))), VRef (VRef (VStr (lit "b"))))
     else Some (sem (rname "Key"), VOther 3)).
  split; [vm_compute; reflexivity|]. split; [cbn [map m_ident]; repeat constructor; cbn; intuition discriminate|].
  split.
  - constructor; [|constructor; [|constructor; [|constructor; [|constructor]]]].
    + exists (lit "self"), (RRef None true (rname "Foo")). split; [now constructor|]. split; [reflexivity|]. split; [exact I|].
      split; [intros (? & ? & ? & X); discriminate|]. cbn [attributes]. apply st_ref_path; [reflexivity|reflexivity|exact I].
    + exists (lit "names"), (RRef None false (RSlice (RRef None false (rname "str")))). split; [constructor; reflexivity|]. split; [reflexivity|]. split; [exact I|].
      split; [intros (? & ? & ? & X); discriminate|]. cbn [attributes]. apply st_slice; [reflexivity|exact I].
    + exists (lit "text"), (RRef None false (RRef None false (rname "str"))). split; [constructor; reflexivity|]. split; [reflexivity|]. split; [exact I|].
      split; [intros (? & ? & ? & X); discriminate|]. cbn [attributes]. apply st_ref; [reflexivity| |discriminate|discriminate]. apply st_str; reflexivity.
    + exists (lit "key"), (rname "Key"). split; [constructor; reflexivity|]. split; [reflexivity|]. split; [exact I|].
      split; [intros (? & ? & ? & X); discriminate|]. cbn [attributes]. apply st_convert with (to := rname "Stored"); [reflexivity|].
      intros v V. eexists. split; reflexivity.
  - vm_compute. repeat split.
Qed.

(** ** C21 *)

(** The types compared with the conversions: the declared type, and what is under [&] if
    that is neither a path nor a slice and the reference itself is not converted. *)
Inductive offers (key : list tok -> Prop) : rty -> list tok -> Prop :=
  | of_type_itself t : offers key t (toks t)
  | of_referent lt m t k : ~ key (toks (RRef lt m t)) -> (forall q lead segs, t <> RPath q lead segs) -> (forall t', t <> RSlice t') ->
      offers key t k -> offers key (RRef lt m t) k.

(** The type under which an argument is considered. *)
Inductive considered (tp : option rpath) (self : option rty) : fn_arg -> rty -> Prop :=
  | c_self n m kind s : self = Some s -> (forall lt mut, kind <> ByRef lt mut) -> considered tp self (Receiver n m kind) s
  | c_ref n m s lt mut : self = Some s -> considered tp self (Receiver n m (ByRef lt mut)) (RRef lt mut s)
  | c_typed n p t t' : expands tp self t t' -> considered tp self (Typed n p t) t'.

(** Arguments that are accepted at all. *)
Definition acceptable (tp : option rpath) (self : option rty) (a : fn_arg) : Prop :=
  match a with
  | Receiver _ mut _ => mut = false /\ self <> None
  | Typed _ p t => List.length (pat_idents p) <= 1 /\ exists t', expands tp self t t'
  end.

Definition key (opts : list (list rty)) (k : list tok) : Prop := exists from to, In [from; to] opts /\ k = toks from.

(** Entries of [c'] are those of [c], those with key in [K] marked as used. *)
Definition marks (K : list tok -> Prop) (c c' : table) : Prop :=
  Forall2 (fun e e' => fst e' = fst e /\ fst (snd e') = fst (snd e) /\ (snd (snd e') = true <-> snd (snd e) = true \/ K (fst e))) c c'.

Lemma marks_refl (K : list tok -> Prop) c : (forall k, tget c k <> None -> ~ K k) -> marks K c c.
Proof.
  intros N. unfold marks. assert (H : forall e, In e c -> ~ K (fst e)).
  { intros e I. apply N. clear N. induction c as [|[k [v b]] c IH]; [destruct I|]. cbn [tget]. destruct I as [<-|I].
    - cbn [fst]. rewrite toks_eqb_refl. discriminate.
    - destruct (toks_eqb k (fst e)); [discriminate|]. now apply IH. }
  clear N. induction c as [|e c IH]; constructor.
  - repeat split; auto. intros [A|A]; [exact A|]. destruct (H e (or_introl eq_refl) A).
  - apply IH. intros x I. apply H. now right.
Qed.
Lemma marks_use c k : marks (fun x => x = k) c (tuse c k).
Proof.
  unfold marks. induction c as [|e c IH]; cbn [tuse map]; constructor; [|exact IH]. destruct (toks_eqb (fst e) k) eqn:E; cbn [fst snd].
  - apply toks_eqb_spec in E. repeat split; auto.
  - apply toks_eqb_neq in E. repeat split; auto. intros [A|A]; [exact A|contradiction].
Qed.
Lemma marks_trans K K' c c' c'' : marks K c c' -> marks K' c' c'' -> marks (fun k => K k \/ K' k) c c''.
Proof.
  unfold marks. intros H. revert c''. induction H as [|e e' c c' (A & B & C) H IH]; intros c'' H'; inversion H' as [|? e'' ? ? (A' & B' & C') H2]; subst; constructor.
  - split; [congruence|]. split; [congruence|]. rewrite C', C, A. tauto.
  - now apply IH.
Qed.
Lemma marks_ext (K K' : list tok -> Prop) c c' : (forall k, tget c k <> None -> (K k <-> K' k)) -> marks K c c' -> marks K' c c'.
Proof.
  intros E H. assert (I : forall e, In e c -> tget c (fst e) <> None).
  { clear. intros e I. induction c as [|[k [v b]] c IH]; [destruct I|]. cbn [tget]. destruct I as [<-|I].
    - cbn [fst]. rewrite toks_eqb_refl. discriminate.
    - destruct (toks_eqb k (fst e)); [discriminate|]. now apply IH. }
  assert (E' : forall e, In e c -> (K (fst e) <-> K' (fst e))) by (intros; apply E; auto). clear E I. unfold marks in *.
  induction H as [|e e' c c' (A & B & C) H IH]; constructor.
  - repeat split; auto; rewrite C, (E' e (or_introl eq_refl)); tauto.
  - apply IH. intros x I. apply E'. now right.
Qed.
Lemma marks_all K c c' : marks K c c' -> (all_used c' = true <-> forall e, In e c -> snd (snd e) = true \/ K (fst e)).
Proof.
  unfold all_used, marks. induction 1 as [|e e' c c' (A & B & C) H IH]; cbn [forallb].
  - split; [intros _ e []|reflexivity].
  - rewrite andb_true_iff, IH, C. split.
    + intros [X Y] x [<-|I]; auto.
    + intros X. split; [apply X; now left|]. intros x I. apply X. now right.
Qed.

Lemma map_typed_marks c0 : forall t c cands x e, (forall k, tget c k = tget c0 k) ->
  marks (offers (fun k => tget c0 k <> None) t) c (fst (fst (map_typed_arg c cands x e t))).
Proof.
  assert (None_case : forall t c, (forall k, tget c k = tget c0 k) -> tget c0 (toks t) = None -> (forall k, offers (fun k => tget c0 k <> None) t k -> k = toks t) ->
     marks (offers (fun k => tget c0 k <> None) t) c c).
  { intros t c G N O. apply marks_refl. intros k K X. apply O in X as ->. rewrite G in K. contradiction. }
  assert (Some_case : forall t c to, (forall k, tget c k = tget c0 k) -> tget c0 (toks t) = Some to ->
     marks (offers (fun k => tget c0 k <> None) t) c (tuse c (toks t))).
  { intros t c to G S. eapply marks_ext; [|apply marks_use]. intros k _. split; [intros ->; constructor|]. intros H. destruct H as [|lt m t k N _ _ _]; [reflexivity|].
    exfalso. apply N. rewrite S. discriminate. }
  induction t; intros c cands x e G; cbn [map_typed_arg]; rewrite G;
    match goal with |- context [tget c0 (toks ?t)] => destruct (tget c0 (toks t)) as [to|] eqn:T; [cbn [fst]; eapply Some_case; eauto|] end;
    try (cbn [fst]; apply None_case; [exact G|exact T|]; intros k O; inversion O; reflexivity).
  assert (Leaf : (exists q lead segs, t = RPath q lead segs) \/ (exists t', t = RSlice t') -> marks (offers (fun k => tget c0 k <> None) (RRef lt mut t)) c c).
  { intros L. apply None_case; [exact G|exact T|]. intros k O. inversion O; subst; [reflexivity|].
    destruct L as [(q & lead & segs & ->)|(t' & ->)]; exfalso; match goal with H : context [_ <> _] |- _ => eapply H; reflexivity end. }
  assert (Deep : (forall q lead segs, t <> RPath q lead segs) -> (forall t', t <> RSlice t') ->
     marks (offers (fun k => tget c0 k <> None) (RRef lt mut t)) c (fst (fst (map_typed_arg c (cands ++ [toks (RRef lt mut t)]) x (EDeref e) t)))).
  { intros N1 N2. eapply marks_ext; [|apply IHt; exact G]. intros k K. split.
    - intros O. constructor; auto.
    - intros O. inversion O; subst; [|assumption]. exfalso. rewrite G in K. contradiction. }
  destruct t; cbn [fst]; try (destruct (is_str _)); cbn [fst re_ref]; try (apply Leaf; left; do 3 eexists; reflexivity); try (apply Leaf; right; eexists; reflexivity);
    specialize (Deep ltac:(discriminate) ltac:(discriminate));
    match goal with |- context [map_typed_arg ?c ?l ?x ?e ?t] => change (map_typed_arg c l x e t) with (map_typed_arg c l x e t) in Deep; destruct (map_typed_arg c l x e t) as [[? ?] ?] end; exact Deep.
Qed.

Lemma finish_marks c0 c cands draws n x lab e t : (forall k, tget c k = tget c0 k) ->
  marks (fun k => n = 0 /\ offers (fun k => tget c0 k <> None) t k) c (fst (fst (fst (finish (c, cands, draws) n x lab e t)))).
Proof.
  intros G. unfold finish. destruct n.
  - pose proof (map_typed_marks c0 t c cands x e G) as M. destruct (map_typed_arg c cands x e t) as [[c' cands'] m]. cbn [fst] in *.
    eapply marks_ext; [|exact M]. intros k _. tauto.
  - cbn [fst]. apply marks_refl. intros k _ [X _]. discriminate.
Qed.

Lemma map_arg_marks c0 tp self c cands draws a s r : (forall k, tget c k = tget c0 k) -> map_arg tp self (c, cands, draws) a = Ret (s, r) ->
  acceptable tp self a /\ (forall k, tget (fst (fst s)) k = tget c0 k) /\
  marks (fun k => exists t, attributes a = 0 /\ considered tp self a t /\ offers (fun k => tget c0 k <> None) t k) c (fst (fst s)).
Proof.
  intros G M. unfold map_arg in M.
  assert (F : forall n x lab e t, finish (c, cands, snd x) n (fst x) lab e t = (s, r) -> attributes a = n -> considered tp self a t -> (forall t', considered tp self a t' -> t' = t) ->
     (forall k, tget (fst (fst s)) k = tget c0 k) /\
     marks (fun k => exists t, attributes a = 0 /\ considered tp self a t /\ offers (fun k => tget c0 k <> None) t k) c (fst (fst s))).
  { intros n x lab e t F A C U. pose proof (finish_marks c0 c cands (snd x) n (fst x) lab e t G) as Mk. destruct (finish_spec _ _ _ _ _ _ _ _ _ _ F) as (T & _).
    rewrite F in Mk. cbn [fst] in Mk. split; [intros k; now rewrite T|]. eapply marks_ext; [|exact Mk]. intros k _. split.
    - intros [N O]. exists t. rewrite A. auto.
    - intros (t' & N & C' & O). apply U in C' as ->. rewrite <- A. auto. }
  destruct a as [n mut kind|n p t].
  - destruct (draw draws) as [d ds]. unfold receiver_type in M. destruct mut, self as [s0|]; try discriminate. cbn [bind] in M. apply ret_inj in M. split; [split; [reflexivity|discriminate]|].
    apply (F n (anonymous d, ds) _ _ _ M eq_refl).
    + destruct kind; constructor; try reflexivity; discriminate.
    + intros t' C. inversion C; subst; [|now match goal with H : Some _ = Some _ |- _ => injection H as -> end].
      destruct kind; try (exfalso; match goal with H : forall _ _, _ <> _ |- _ => eapply H; reflexivity end); congruence.
  - apply bind_ret in M as (xd & P & M). apply bind_ret in M as (t1 & T & M). apply ret_inj in M.
    assert (E : expands tp self t t1) by (destruct self; [exact T|injection T as ->; reflexivity]).
    split.
    + split; [|now exists t1]. destruct (pat_idents p) as [|x [|]]; cbn; try lia. discriminate.
    + apply (F n xd _ _ _ M eq_refl); [now constructor|]. intros t' C. inversion C; subst. destruct self; cbn [expands] in *; congruence.
Qed.

Lemma acceptable_map tp self s a : acceptable tp self a -> exists s' r, map_arg tp self s a = Ret (s', r).
Proof.
  destruct s as [[c cands] draws]. destruct a as [n mut kind|n p t]; cbn [acceptable map_arg].
  - intros [-> N]. destruct self as [s0|]; [|contradiction]. destruct (draw draws) as [d ds]. cbn [receiver_type bind].
    destruct (finish _ _ _ _ _ _) as [s' r]. eauto.
  - intros [L [t' E]]. destruct (pat_idents p) as [|x [|]]; [destruct (draw draws) as [d ds]| |cbn in L; lia]; cbn [bind];
      (destruct self as [s0|]; cbn [expands] in E; [rewrite E|subst t']; cbn [bind]; destruct (finish _ _ _ _ _ _) as [s' r]; eauto).
Qed.

Lemma map_args_marks c0 tp self : forall l c cands draws s rs, (forall k, tget c k = tget c0 k) -> map_args tp self (c, cands, draws) l = Ret (s, rs) ->
  Forall (acceptable tp self) l /\
  marks (fun k => exists a t, In a l /\ attributes a = 0 /\ considered tp self a t /\ offers (fun k => tget c0 k <> None) t k) c (fst (fst s)).
Proof.
  induction l as [|a l IH]; intros c cands draws s rs G M.
  - injection M as <- <-. split; [constructor|]. cbn [fst]. apply marks_refl. intros k _ (? & ? & [] & _).
  - cbn [map_args] in M. apply bind_ret in M as ([s1 r] & M1 & M). apply bind_ret in M as ([s2 rs'] & M2 & M). cbn [fst snd] in M, M2. injection M as <- <-.
    destruct (map_arg_marks c0 _ _ _ _ _ _ _ _ G M1) as (A & G1 & K1). destruct s1 as [[c1 cands1] draws1]. cbn [fst] in *.
    destruct (IH c1 cands1 draws1 s2 rs' G1 M2) as (F & K2). split; [now constructor|].
    eapply marks_ext; [|eapply marks_trans; eauto]. intros k _. cbn beta. split.
    + intros [(t & X)|(a' & t & I & X)]; [exists a, t|exists a', t]; (split; [|exact X]); [now left|now right].
    + intros (a' & t & [->|I] & X); [left|right]; eauto.
Qed.

Lemma acceptable_map_args tp self : forall l s, Forall (acceptable tp self) l -> exists s' rs, map_args tp self s l = Ret (s', rs).
Proof.
  induction l as [|a l IH]; intros s F; [cbn; eauto|]. inversion F; subst. cbn [map_args].
  destruct (acceptable_map tp self s a) as (s1 & r & ->); [assumption|]. cbn [bind fst]. destruct (IH s1) as (s2 & rs & ->); [assumption|]. cbn [bind]. eauto.
Qed.

Lemma make_table_total opts : forall c, (exists c', make_table opts c = Ret c') <-> Forall (fun o => List.length o = 2) opts.
Proof.
  induction opts as [|o opts IH]; intros c; cbn [make_table]; [split; [constructor|eauto]|]. split.
  - destruct o as [|a [|b [|]]]; try (intros [? X]; discriminate). intros X. constructor; [reflexivity|]. eapply IH. exact X.
  - intros F. inversion F as [|? ? L F']; subst. destruct o as [|a [|b [|]]]; try discriminate. now apply IH.
Qed.

Lemma insert_unused c k v : Forall (fun e : list tok * (rty * bool) => snd (snd e) = false) c -> Forall (fun e => snd (snd e) = false) (tinsert c k v).
Proof.
  induction 1 as [|[k' [v' b]] c E F IH]; cbn [tinsert]; [repeat constructor|]. destruct (toks_eqb k' k); constructor; auto.
Qed.
Lemma make_unused opts : forall c c', Forall (fun e : list tok * (rty * bool) => snd (snd e) = false) c -> make_table opts c = Ret c' -> Forall (fun e => snd (snd e) = false) c'.
Proof.
  induction opts as [|o opts IH]; intros c c' F E; [injection E as <-; exact F|]. cbn [make_table] in E. destruct o as [|a [|b [|]]]; try discriminate.
  eapply IH; [|exact E]. now apply insert_unused.
Qed.
Lemma conversion_key opts k : conversion opts k <> None <-> key opts k.
Proof.
  unfold key. induction opts as [|o opts IH]; cbn [conversion].
  - split; [contradiction|]. intros (? & ? & [] & _).
  - destruct (conversion opts k) as [v|] eqn:E.
    + split; [|discriminate]. intros _. destruct IH as [IH _]. destruct IH as (f & t & I & K); [discriminate|]. exists f, t. split; [now right|exact K].
    + split.
      * destruct o as [|a [|b [|]]]; try contradiction. destruct (toks_eqb (toks a) k) eqn:T; [|contradiction]. intros _. apply toks_eqb_spec in T. exists a, b. split; [now left|now symmetry].
      * intros (f & t & [->|I] & ->); [rewrite toks_eqb_refl; discriminate|]. exfalso. apply IH; [|reflexivity]. eauto.
Qed.
Lemma in_table c k : tget c k <> None <-> exists e, In e c /\ fst e = k.
Proof.
  induction c as [|[k' [v b]] c IH]; cbn [tget]; [split; [contradiction|intros (? & [] & _)]|]. destruct (toks_eqb k' k) eqn:E.
  - apply toks_eqb_spec in E as ->. split; [|discriminate]. intros _. eexists. split; [now left|reflexivity].
  - rewrite IH. split; intros (e & I & X); [exists e; split; [now right|exact X]|]. destruct I as [<-|I]; [|eauto]. cbn in X. subst. rewrite toks_eqb_refl in E. discriminate.
Qed.

(** Expansion of the arguments succeeds exactly if the options are well formed, the
    arguments acceptable, and every conversion meets an argument without attributes. *)
Theorem C21_exact :
  forall (tp : option rpath) (self : option rty) (opts : list (list rty)) (draws : list N) (l : list fn_arg),
    (exists rs, expand_args tp self opts draws l = Ret rs) <->
    Forall (fun o => List.length o = 2) opts /\ Forall (acceptable tp self) l /\
    forall k, key opts k -> exists a t, In a l /\ attributes a = 0 /\ considered tp self a t /\ offers (key opts) t k.
Proof.
  intros tp self opts draws l. unfold expand_args.
  assert (KEY : forall c t k, make_table opts [] = Ret c -> (offers (fun k => tget c k <> None) t k <-> offers (key opts) t k)).
  { intros c t k C. assert (E : forall k, tget c k <> None <-> key opts k).
    { intros k'. rewrite <- conversion_key. rewrite (make_table_get _ _ _ k' C). destruct (conversion opts k'); cbn; intuition discriminate. }
    split; intros O; induction O; constructor; auto; rewrite ?E; auto. now rewrite <- E. }
  split.
  - intros [rs E]. apply bind_ret in E as (c & C & E). apply bind_ret in E as ([s rs'] & M & E). cbn [fst snd] in E.
    destruct (all_used (fst (fst s))) eqn:U; [|discriminate]. destruct (map_args_marks c tp self l c [] draws s rs' (fun k => eq_refl) M) as (A & K).
    split; [apply (make_table_total opts []); eauto|]. split; [exact A|]. intros k HK.
    assert (T : tget c k <> None) by (rewrite (make_table_get _ _ _ k C); apply conversion_key in HK; destruct (conversion opts k); [discriminate|contradiction]).
    apply in_table in T as (e & I & <-). apply (marks_all _ _ _ K) with (e := e) in U; [|exact I].
    pose proof (make_unused opts [] c ltac:(constructor) C) as N. rewrite Forall_forall in N. specialize (N e I). destruct U as [U|(a & t & X)]; [congruence|].
    exists a, t. destruct X as (X1 & X2 & X3 & X4). repeat split; auto. eapply KEY; eauto.
  - intros (O & A & K). apply (make_table_total opts []) in O as [c C]. rewrite C. cbn [bind].
    destruct (acceptable_map_args tp self l (c, [], draws) A) as (s & rs & M). rewrite M. cbn [bind fst snd].
    destruct (map_args_marks c tp self l c [] draws s rs (fun k => eq_refl) M) as (_ & Mk).
    assert (U : all_used (fst (fst s)) = true).
    { apply (marks_all _ _ _ Mk). intros e I. right. assert (HK : key opts (fst e)).
      { apply conversion_key. assert (T : tget c (fst e) <> None) by (apply in_table; eauto). rewrite (make_table_get _ _ _ _ C) in T.
        destruct (conversion opts (fst e)); [discriminate|contradiction]. }
      destruct (K _ HK) as (a & t & X1 & X2 & X3 & X4). exists a, t. repeat split; auto. eapply KEY; eauto. }
    rewrite U. eauto.
Qed.
Print Assumptions C21_exact.

Lemma map_args_each c0 tp self : forall l c cands draws s rs, (forall k, tget c k = tget c0 k) -> map_args tp self (c, cands, draws) l = Ret (s, rs) ->
  Forall2 (fun a r => exists c' cands' draws' s', (forall k, tget c' k = tget c0 k) /\ map_arg tp self (c', cands', draws') a = Ret (s', r)) l rs.
Proof.
  induction l as [|a l IH]; intros c cands draws s rs G M.
  - injection M as <- <-. constructor.
  - cbn [map_args] in M. apply bind_ret in M as ([s1 r] & M1 & M). apply bind_ret in M as ([s2 rs'] & M2 & M). cbn [fst snd] in M, M2. injection M as <- <-.
    destruct (map_arg_marks c0 _ _ _ _ _ _ _ _ G M1) as (_ & G1 & _). destruct s1 as [[c1 cands1] draws1]. cbn [fst] in *. constructor; [|eapply IH; eauto].
    exists c, cands, draws, (c1, cands1, draws1). auto.
Qed.

Lemma map_arg_mapped c0 tp self c cands draws a s r t : (forall k, tget c k = tget c0 k) -> map_arg tp self (c, cands, draws) a = Ret (s, r) -> considered tp self a t ->
  exists x, m_type r = t /\
    m_mapped r = match attributes a with 0 => snd (map_typed_arg c cands (m_ident r) (EVar x) t) | _ => (t, ECloneAs t (EVar x), EField (m_ident r)) end.
Proof.
  intros G M C. destruct C as [n m kind s0 E N|n m s0 lt mut E|n p t t' E]; unfold map_arg in M; cbn [attributes].
  - subst self. destruct (draw draws) as [d ds]. cbn [receiver_type] in M. destruct m; [discriminate|]. cbn [bind] in M. apply ret_inj in M.
    exists (lit "self"). destruct kind; try (exfalso; eapply N; reflexivity); apply finish_spec in M as (_ & _ & T & I & _ & _ & X); rewrite I; auto.
  - subst self. destruct (draw draws) as [d ds]. cbn [receiver_type] in M. destruct m; [discriminate|]. cbn [bind] in M. apply ret_inj in M.
    exists (lit "self"). apply finish_spec in M as (_ & _ & T & I & _ & _ & X). rewrite I. auto.
  - apply bind_ret in M as (xd & P & M). apply bind_ret in M as (t1 & T & M). apply ret_inj in M.
    assert (t1 = t') as -> by (destruct self; cbn [expands] in E; congruence).
    exists (fst xd). apply finish_spec in M as (_ & _ & T2 & I & _ & _ & X). rewrite I. auto.
Qed.

(** An argument without attributes whose type has a conversion is stored as the type of the
    last conversion given for it, computed with [FromRef] and rebuilt with [Into]. *)
Theorem C21_last_conversion :
  forall tp self opts draws l rs, expand_args tp self opts draws l = Ret rs ->
    Forall2 (fun a r => forall t o1 o2 from to, considered tp self a t -> attributes a = 0 ->
      opts = o1 ++ [from; to] :: o2 -> toks from = toks t -> ~ key o2 (toks t) ->
      stored_type r = to /\ (exists x, ser r = EFromRef to t (EVar x)) /\ de r = EInto (EField (m_ident r))) l rs.
Proof.
  intros tp self opts draws l rs E. unfold expand_args in E. apply bind_ret in E as (c & C & E). apply bind_ret in E as ([s rs'] & M & E).
  cbn [fst snd] in E. destruct (all_used _); [|discriminate]. injection E as ->. apply (map_args_each c) in M; [|reflexivity].
  clear -M C. induction M as [|a r l rs (c' & cands & ds & s' & G & M1) M IH]; constructor; [|exact IH]. clear IH M.
  intros t o1 o2 from to K A O F N. destruct (map_arg_mapped c _ _ _ _ _ _ _ _ _ G M1 K) as (x & T & X). rewrite A in X.
  assert (V : tget c' (toks t) = Some to).
  { rewrite G, (make_table_get _ _ _ _ C), O. clear -N F. assert (N2 : conversion o2 (toks t) = None).
    { destruct (conversion o2 (toks t)) eqn:E; [|reflexivity]. exfalso. apply N. apply conversion_key. now rewrite E. }
    induction o1 as [|o o1 IH]; cbn [app conversion].
    - rewrite N2, F, toks_eqb_refl. reflexivity.
    - destruct (conversion (o1 ++ [from; to] :: o2) (toks t)); [exact IH|discriminate]. }
  assert (Y : snd (map_typed_arg c' cands (m_ident r) (EVar x) t) = (to, EFromRef to t (EVar x), EInto (EField (m_ident r)))) by (destruct t; cbn [map_typed_arg]; rewrite V; reflexivity).
  unfold stored_type, ser, de. rewrite X, Y. cbn. eauto.
Qed.
Print Assumptions C21_last_conversion.

(** An argument with attributes is stored under its own type. *)
Theorem C21_attributed :
  forall tp self opts draws l rs, expand_args tp self opts draws l = Ret rs ->
    Forall2 (fun a r => forall t, considered tp self a t -> attributes a <> 0 ->
      stored_type r = t /\ (exists x, ser r = ECloneAs t (EVar x)) /\ de r = EField (m_ident r)) l rs.
Proof.
  intros tp self opts draws l rs E. unfold expand_args in E. apply bind_ret in E as (c & C & E). apply bind_ret in E as ([s rs'] & M & E).
  cbn [fst snd] in E. destruct (all_used _); [|discriminate]. injection E as ->. apply (map_args_each c) in M; [|reflexivity].
  clear -M. induction M as [|a r l rs (c' & cands & ds & s' & G & M1) M IH]; constructor; [|exact IH]. clear IH M.
  intros t K A. destruct (map_arg_mapped c _ _ _ _ _ _ _ _ _ G M1 K) as (x & T & X). destruct (attributes a); [contradiction|].
  unfold stored_type, ser, de. rewrite X. cbn. eauto.
Qed.
Print Assumptions C21_attributed.

(** The README says that [convert = "X, Y"] also converts arguments of type [&X].  If [X] is
    a path, it does not, and expansion fails. *)
Theorem C21_reference_refuted :
  forall (q : option (rty * nat)) (lead : bool) (segs : list seg) (y : rty) (lt : option str) (m : bool) (x : str) (draws : list N),
    let X := RPath q lead segs in toks (RRef lt m X) <> toks X ->
    expand_args None None [[X; y]] draws [Typed 0 (PatIdent x None) (RRef lt m X)] = Panic.
Proof.
  intros q lead segs y lt m x draws X N.
  assert (E : ~ exists rs, expand_args None None [[X; y]] draws [Typed 0 (PatIdent x None) (RRef lt m X)] = Ret rs).
  { intros H. apply C21_exact in H as (_ & _ & K). destruct (K (toks X)) as (a & t & [<-|[]] & _ & C & O); [exists X, y; split; [now left|reflexivity]|].
    inversion C as [| |n p t0 t' E]; subst. cbn [expands] in E. subst t. remember (toks X) as k eqn:Ek. inversion O; subst; [now apply N|].
    match goal with H : forall q lead segs, _ <> _ |- _ => eapply H; reflexivity end. }
  unfold expand_args in *. cbn [make_table bind] in *.
  destruct (map_args None None (tinsert [] (toks X) y, [], draws) [Typed 0 (PatIdent x None) (RRef lt m X)]) as [[s rs]|e|] eqn:M; cbn [bind fst snd] in *; [|exfalso|reflexivity].
  - destruct (all_used _); [|reflexivity]. destruct E. eauto.
  - cbn [map_args map_arg pat_idents bind fst snd] in M. discriminate.
Qed.
Print Assumptions C21_reference_refuted.

Example C21_example :
  let x := rname "X" in let y := rname "Y" in
  (exists rs, expand_args None None [[x; rname "Z"]; [x; y]] [] [Typed 0 (PatIdent (lit "a") None) x; Typed 1 (PatIdent (lit "b") None) x] = Ret rs /\
     map stored_type rs = [y; x]) /\
  expand_args None None [[x; y]] [] [Typed 1 (PatIdent (lit "b") None) x] = Panic /\
  expand_args None None [[x; y]] [] [Typed 0 (PatIdent (lit "b") None) (RRef None false x)] = Panic /\
  (exists rs, expand_args None None [[RTuple [x; x]; y]] [] [Typed 0 (PatIdent (lit "a") None) (RRef None false (RTuple [x; x]))] = Ret rs).
Proof. vm_compute. repeat split; eexists; repeat split. Qed.

(** ** C22 *)

(** The names the user gave to parameters. *)
Definition user_names (l : list fn_arg) : list str :=
  List.concat (map (fun a => match a with Receiver _ _ _ => [] | Typed _ p _ => pat_idents p end) l).
(** The arguments without a name. *)
Definition nameless (l : list fn_arg) : nat :=
  List.length (List.filter (fun a => match a with Receiver _ _ _ => true | Typed _ p _ => match pat_idents p with [] => true | _ => false end end) l).
(** A value of a 32-bit counter as a name: [_] and a decimal numeral. *)
Definition generated (s : str) : Prop := exists n, (n < 2 ^ 32)%N /\ exists d, s = lit "_" ++ d /\ numeral n d.

Lemma map_args_names tp self : forall l c cands draws s rs, nameless l <= List.length draws -> map_args tp self (c, cands, draws) l = Ret (s, rs) ->
  Permutation (map m_ident rs) (user_names l ++ map anonymous (firstn (nameless l) draws)).
Proof.
  induction l as [|a l IH]; intros c cands draws s rs L M.
  - injection M as <- <-. cbn. constructor.
  - cbn [map_args] in M. apply bind_ret in M as ([s1 r] & M1 & M). apply bind_ret in M as ([s2 rs'] & M2 & M). cbn [fst snd] in M, M2. injection M as <- <-.
    destruct s1 as [[c1 cands1] draws1]. unfold map_arg in M1. unfold nameless in *. destruct a as [n mut kind|n p t]; cbn [List.filter] in *.
    + cbn [List.length] in L. destruct draws as [|d draws]; [cbn in L; lia|]. cbn [draw] in M1. apply bind_ret in M1 as (t & T & M1). apply ret_inj in M1.
      apply finish_spec in M1 as (_ & D & _ & I & _). cbn [snd] in D. subst draws1. cbn [map List.length firstn]. rewrite I. cbn [user_names map List.concat app]. fold (user_names l).
      eapply perm_trans; [|apply Permutation_middle]. constructor. eapply IH; [cbn in L; lia|exact M2].
    + apply bind_ret in M1 as (xd & P & M1). apply bind_ret in M1 as (t1 & T & M1). apply ret_inj in M1. apply finish_spec in M1 as (_ & D & _ & I & _). cbn [snd] in D. subst draws1.
      cbn [user_names map List.concat]. fold (user_names l). destruct (pat_idents p) as [|x [|]] eqn:PI; [| |discriminate].
      * cbn [List.length] in L. destruct draws as [|d draws]; [cbn in L; lia|]. cbn [draw] in P. injection P as <-. cbn [fst snd] in *. cbn [map List.length firstn app]. rewrite I.
        eapply perm_trans; [|apply Permutation_middle]. constructor. eapply IH; [cbn in L; lia|exact M2].
      * injection P as <-. cbn [fst snd] in *. cbn [map app]. rewrite I. constructor. eapply IH; eauto.
Qed.

Lemma NoDup_left A (a b : list A) : NoDup (a ++ b) -> NoDup a.
Proof.
  induction a as [|x a IH]; intros H; [constructor|]. inversion H as [|? ? N H']; subst. constructor; [|now apply IH].
  intros I. apply N. apply in_or_app. now left.
Qed.

Lemma anonymous_inj a b base : (base <= a < base + 2 ^ 32)%N -> (base <= b < base + 2 ^ 32)%N -> anonymous a = anonymous b -> a = b.
Proof.
  intros A B E. unfold anonymous in E. apply app_inv_head in E. apply dec_inj in E.
  pose proof (N.div_mod a (2 ^ 32)) as Da. pose proof (N.div_mod b (2 ^ 32)) as Db.
  assert (Z : (2 ^ 32 <> 0)%N) by (apply N.pow_nonzero; lia). specialize (Da Z). specialize (Db Z). set (M := (2 ^ 32)%N) in *.
  assert (H : (a / M = b / M)%N).
  { assert (a / M < b / M + 1 + 1 /\ b / M < a / M + 1 + 1)%N.
    { split; apply N.div_lt_upper_bound; auto; pose proof (N.mod_lt a M Z); pose proof (N.mod_lt b M Z); nia. }
    destruct (N.lt_trichotomy (a / M) (b / M)) as [X|[X|X]]; [|exact X|]; exfalso.
    - assert (b / M = a / M + 1)%N by lia. rewrite H0 in Db. nia.
    - assert (a / M = b / M + 1)%N by lia. rewrite H0 in Da. nia. }
  rewrite Da, Db, H, E. reflexivity.
Qed.
Lemma anonymous_generated n : generated (anonymous n).
Proof.
  exists (n mod 2 ^ 32)%N. split; [apply N.mod_lt, N.pow_nonzero; lia|]. eexists. split; [reflexivity|apply dec_numeral].
Qed.

(** The fields are named after the parameters and, for the rest, by generated names, which
    are pairwise distinct as long as the counter has not gone round meanwhile.  [draws] are
    the values the shared counter had when this expansion asked for a name. *)
Theorem C22_names :
  forall ps tp self opts draws l names base,
    field_names ps tp self opts draws l = Ret names ->
    phantom_count ps + nameless l <= List.length draws -> NoDup draws -> Forall (fun n => base <= n < base + 2 ^ 32)%N draws ->
    exists gen, Permutation names (user_names l ++ gen) /\ NoDup gen /\ Forall generated gen /\ List.length gen = phantom_count ps + nameless l.
Proof.
  intros ps tp self opts draws l names base E L ND B. unfold field_names in E. apply bind_ret in E as (rs & E & F). injection F as <-.
  set (n := phantom_count ps) in *. unfold expand_args in E. apply bind_ret in E as (c & C & E). apply bind_ret in E as ([s rs'] & M & E). cbn [fst snd] in E.
  destruct (all_used _); [|discriminate]. injection E as ->.
  apply map_args_names in M; [|rewrite skipn_length; lia]. exists (map anonymous (firstn (nameless l) (skipn n draws)) ++ map anonymous (firstn n draws)).
  split; [rewrite app_assoc; now apply Permutation_app_tail|]. split.
  - rewrite <- map_app. apply (Permutation_NoDup (l := map anonymous (firstn n draws ++ firstn (nameless l) (skipn n draws)))); [apply Permutation_map, Permutation_app_comm|].
    assert (X : firstn n draws ++ firstn (nameless l) (skipn n draws) = firstn (n + nameless l) draws).
    { clear. revert draws. induction n as [|n IH]; intros draws; [reflexivity|]. destruct draws as [|d draws]; [cbn; now rewrite firstn_nil|]. cbn. f_equal. apply IH. }
    rewrite X. clear X. rewrite <- (firstn_skipn (n + nameless l) draws) in ND, B. apply Forall_app in B as [B _].
    assert (ND' : NoDup (firstn (n + nameless l) draws)) by (eapply NoDup_left; exact ND). clear ND. induction ND' as [|d ds N ND IH]; [constructor|].
    inversion B as [|? ? B1 B2]; subst. cbn [map]. constructor; [|now apply IH]. intros I. apply in_map_iff in I as (d' & I1 & I2). apply (anonymous_inj _ _ base) in I1; [subst; contradiction| |exact B1].
    rewrite Forall_forall in B2. now apply B2.
  - split; [apply Forall_app; split; apply Forall_forall; intros x I; apply in_map_iff in I as (d & <- & _); apply anonymous_generated|].
    rewrite app_length, !map_length, !firstn_length, skipn_length. lia.
Qed.
Print Assumptions C22_names.

(** So the names are distinct unless the user writes one name twice or a generated one. *)
Theorem C22_distinct :
  forall ps tp self opts draws l names base,
    field_names ps tp self opts draws l = Ret names ->
    phantom_count ps + nameless l <= List.length draws -> NoDup draws -> Forall (fun n => base <= n < base + 2 ^ 32)%N draws ->
    NoDup (user_names l) -> (forall x, In x (user_names l) -> ~ generated x) -> NoDup names.
Proof.
  intros ps tp self opts draws l names base E L ND B U N. destruct (C22_names _ _ _ _ _ _ _ _ E L ND B) as (gen & P & G & F & _).
  apply Permutation_sym in P. apply (Permutation_NoDup P). clear -U N G F. induction (user_names l) as [|x us IH]; [exact G|].
  inversion U; subst. cbn [app]. constructor; [|apply IH; auto; intros y I; apply N; now right].
  intros I. apply in_app_or in I as [I|I]; [contradiction|]. apply (N x); [now left|]. rewrite Forall_forall in F. now apply F.
Qed.
Print Assumptions C22_distinct.

(** How a parameter is called. *)
Inductive shown_as : fn_arg -> mapped_arg -> Prop :=
  | shown_self n mut kind r : m_label r = lit "self" -> generated (m_ident r) -> shown_as (Receiver n mut kind) r
  | shown_name n p t x r : pat_idents p = [x] -> m_label r = x -> m_ident r = x -> shown_as (Typed n p t) r
  | shown_nameless n p t r : pat_idents p = [] -> m_label r = m_ident r -> generated (m_ident r) -> shown_as (Typed n p t) r.

(** In the debug output (C70) the receiver is called [self] and a parameter by its name; one without
    a name by the name of its field, which is a generated one. *)
Theorem C22_shown :
  forall tp self opts draws l rs, expand_args tp self opts draws l = Ret rs -> Forall2 shown_as l rs.
Proof.
  intros tp self opts draws l rs E. unfold expand_args in E. apply bind_ret in E as (c & _ & E). apply bind_ret in E as ([s rs'] & M & E). cbn [fst snd] in E.
  destruct (all_used _); [|discriminate]. injection E as ->. revert M. generalize (@nil (list tok)) as cands. revert c draws s rs.
  induction l as [|a l IH]; intros c draws s rs cands M.
  - injection M as <- <-. constructor.
  - cbn [map_args] in M. apply bind_ret in M as ([s1 r] & M1 & M). apply bind_ret in M as ([s2 rs'] & M2 & M). cbn [fst snd] in M, M2. injection M as <- <-.
    destruct s1 as [[c1 cands1] draws1]. constructor; [|eapply IH; exact M2]. clear M2 IH. unfold map_arg in M1. destruct a as [n mut kind|n p t].
    + destruct (draw draws) as [d ds]. apply bind_ret in M1 as (t & _ & M1). apply ret_inj in M1. apply finish_spec in M1 as (_ & _ & _ & I & L & _).
      apply shown_self; [exact L|rewrite I; apply anonymous_generated].
    + apply bind_ret in M1 as (xd & P & M1). apply bind_ret in M1 as (t1 & _ & M1). apply ret_inj in M1. apply finish_spec in M1 as (_ & _ & _ & I & L & _).
      destruct (pat_idents p) as [|x [|]] eqn:PI; [| |discriminate].
      * destruct (draw draws) as [d ds]. injection P as <-. apply shown_nameless; [exact PI|congruence|rewrite I; apply anonymous_generated].
      * injection P as <-. apply (shown_name _ _ _ x); assumption.
Qed.
Print Assumptions C22_shown.

(** [fn f(&self, _0: u8)] as the first expansion. *)
Theorem C22_user_clash_refuted :
  exists l names, field_names [] None (Some (rname "Foo")) [] [0%N] l = Ret names /\ NoDup (user_names l) /\ ~ NoDup names.
Proof.
  exists [Receiver 0 false (ByRef None false); Typed 0 (PatIdent (lit "_0") None) (rname "u8")]. eexists. split; [vm_compute; reflexivity|].
  split; [repeat constructor; intros []|]. intros N. inversion N as [|? ? H _]. apply H. now left.
Qed.
Print Assumptions C22_user_clash_refuted.

(** After [2^32] names the first one comes again. *)
Theorem C22_wrap_refuted : forall n, anonymous (n + 2 ^ 32) = anonymous n.
Proof.
  intros n. unfold anonymous. do 2 f_equal. rewrite <- (N.mul_1_l (2 ^ 32)) at 1. apply N.mod_add. apply N.pow_nonzero. lia.
Qed.
Print Assumptions C22_wrap_refuted.

Example C22_example :
  exists names, field_names [PLifetime (lit "'a"); PType (lit "T"); PConst (lit "N")] None (Some (rname "Foo")) [] [4%N; 9%N; 10%N; 12%N]
    [Receiver 0 false ByValue; Typed 0 (PatIdent (lit "x") None) (rname "u8"); Typed 0 (PatOther []) (rname "u8")] = Ret names /\
  names = [lit "_10"; lit "x"; lit "_12"; lit "_4"; lit "_9"] /\ NoDup names.
Proof. eexists. split; [vm_compute; reflexivity|]. split; [reflexivity|]. repeat constructor; cbn; intuition discriminate. Qed.
