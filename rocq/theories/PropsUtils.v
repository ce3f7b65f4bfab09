(** C83 and C84: [dont_care!], [leak!] and [serde_ref]. *)
From Coq Require Import List Ascii String Bool Arith Lia NArith.
From Verif Require Import Base Utf8 Sha1 Serde SerdeFacts Postcard PropsSerde Utils.
From Verif Require Bincode Syntax MacroArgs PropsMacroArgs Combinators.
Import ListNotations.
Local Open Scope nat_scope.

(** ** Specification *)

(** The values of a type. *)
Inductive has (env : nat -> ty) : uty -> uval -> Prop :=
| has_base t v : wt env t v -> has env (UBase t) (XBase v)
| has_any e n : has env (UDontCare e) (XAny n)
| has_struct us xs : Forall2 (has env) us xs -> has env (UStruct us) (XStruct xs)
| has_vec u xs : fits_len xs -> Forall (has env u) xs -> has env (UVec u) (XVec xs)
| has_none u : has env (UOption u) XNone
| has_some u x : has env u x -> has env (UOption u) (XSome x).

(** [y] is [x] with every [dont_care!] value replaced by the one of the expression, and
    nothing else changed. *)
Inductive restored : uty -> uval -> uval -> Prop :=
| re_base t v : restored (UBase t) (XBase v) (XBase v)
| re_any e n : restored (UDontCare e) (XAny n) (XAny e)
| re_struct us xs ys : restored_all us xs ys -> restored (UStruct us) (XStruct xs) (XStruct ys)
| re_vec u xs ys : Forall2 (restored u) xs ys -> restored (UVec u) (XVec xs) (XVec ys)
| re_none u : restored (UOption u) XNone XNone
| re_some u x y : restored u x y -> restored (UOption u) (XSome x) (XSome y)
with restored_all : list uty -> list uval -> list uval -> Prop :=
| re_nil : restored_all [] [] []
| re_cons u us x xs y ys : restored u x y -> restored_all us xs ys -> restored_all (u :: us) (x :: xs) (y :: ys).

(** ** Proofs *)

Section UtyInd.
  Variable P : uty -> Prop.
  Hypothesis Hbase : forall t, P (UBase t).
  Hypothesis Hdc : forall e, P (UDontCare e).
  Hypothesis Hstruct : forall us, Forall P us -> P (UStruct us).
  Hypothesis Hvec : forall u, P u -> P (UVec u).
  Hypothesis Hopt : forall u, P u -> P (UOption u).
  Fixpoint uty_ind' (u : uty) : P u :=
    match u with
    | UBase t => Hbase t
    | UDontCare e => Hdc e
    | UStruct us => Hstruct us ((fix go us : Forall P us := match us with [] => Forall_nil _ | u :: us => Forall_cons _ (uty_ind' u) (go us) end) us)
    | UVec u => Hvec u (uty_ind' u)
    | UOption u => Hopt u (uty_ind' u)
    end.
End UtyInd.

Definition to_all := fix go us xs := match us, xs with u :: us, x :: xs => to_val u x :: go us xs | _, _ => [] end.
Definition from_all := fix go us vs := match us, vs with
                          | [], _ => Some []
                          | u :: us, v :: vs => both cons (from_val u v) (go us vs)
                          | _, _ => None
                          end.

Lemma to_val_struct us xs : to_val (UStruct us) (XStruct xs) = VTuple (to_all us xs).
Proof. reflexivity. Qed.
Lemma from_val_struct us vs : from_val (UStruct us) (VTuple vs) = option_map XStruct (from_all us vs).
Proof. reflexivity. Qed.

Lemma to_wt env u : forall x, has env u x -> wt env (shape u) (to_val u x).
Proof.
  induction u as [t|e|us IH|u IH|u IH] using uty_ind'; intros x H; inversion H; subst; cbn [shape].
  - assumption.
  - constructor.
  - rewrite to_val_struct. constructor. clear H. revert xs H1.
    induction IH as [|u us Hu Hus IHus]; intros xs F; inversion F; subst; cbn [map to_all]; constructor; auto.
  - cbn [to_val]. constructor; [unfold fits_len in *; now rewrite map_length|].
    clear H H1. induction H2; cbn [map]; constructor; auto.
  - constructor.
  - cbn [to_val]. constructor. auto.
Qed.

Lemma from_to env u : forall x, has env u x -> exists y, from_val u (to_val u x) = Some y /\ restored u x y.
Proof.
  induction u as [t|e|us IH|u IH|u IH] using uty_ind'; intros x H; inversion H; subst.
  - eexists. split; [reflexivity|constructor].
  - eexists. split; [reflexivity|constructor].
  - rewrite to_val_struct, from_val_struct. clear H.
    assert (G : exists ys, from_all us (to_all us xs) = Some ys /\ restored_all us xs ys).
    { revert xs H1. induction IH as [|u us Hu Hus IHus]; intros xs F; inversion F; subst; cbn [to_all from_all].
      - exists []. split; [reflexivity|constructor].
      - match goal with H1 : has _ u ?a, H3 : Forall2 _ us ?b |- _ => destruct (Hu _ H1) as (z & Ey & Ry); destruct (IHus _ H3) as (zs & Eys & Rys) end.
        exists (z :: zs). fold to_all from_all. rewrite Ey, Eys. split; [reflexivity|now constructor]. }
    destruct G as (ys & -> & R). eexists. split; [reflexivity|now constructor].
  - cbn [to_val from_val]. clear H H1.
    assert (G : exists ys, fold_right (fun v r => both cons (from_val u v) r) (Some []) (map (to_val u) xs) = Some ys /\ Forall2 (restored u) xs ys).
    { induction H2 as [|x xs Hx F IHF]; [exists []; split; [reflexivity|constructor]|].
      destruct (IH _ Hx) as (y & Ey & Ry). destruct IHF as (ys & Eys & Rys). exists (y :: ys).
      cbn [map fold_right]. rewrite Ey, Eys. split; [reflexivity|now constructor]. }
    destruct G as (ys & -> & R). eexists. split; [reflexivity|now constructor].
  - eexists. split; [reflexivity|constructor].
  - match goal with K : has _ u _ |- _ => destruct (IH _ K) as (y & E & R) end. cbn [to_val from_val]. rewrite E. eexists. split; [reflexivity|now constructor].
Qed.

(** Restoring does not change what is serialised. *)
Lemma restored_to u : forall x y, restored u x y -> to_val u x = to_val u y.
Proof.
  induction u as [t|e|us IH|u IH|u IH] using uty_ind'; intros x y H; inversion H; subst; try reflexivity.
  - rewrite !to_val_struct. f_equal. clear H. revert xs ys H1.
    induction IH as [|u us Hu Hus IHus]; intros xs ys R; inversion R; subst; cbn [to_all]; [reflexivity|].
    fold to_all. f_equal; auto.
  - cbn [to_val]. f_equal. clear H. induction H1; cbn [map]; [reflexivity|]. f_equal; auto.
  - cbn [to_val]. f_equal. auto.
Qed.

(** Every value can be restored, in one way only. *)
Lemma restored_unique u : forall x y y', restored u x y -> restored u x y' -> y = y'.
Proof.
  induction u as [t|e|us IH|u IH|u IH] using uty_ind'; intros x y y' H H'; inversion H; subst; inversion H'; subst; try reflexivity.
  - f_equal. match goal with A : restored_all us xs ?a, B : restored_all us xs ?b |- ?a = ?b => rename A into R; rename B into R' end.
    clear H H'. revert R R'. generalize ys0 as b. generalize ys as a. revert xs.
    induction IH as [|u us Hu Hus IHus]; intros xs a b R R'; inversion R; subst; inversion R'; subst; [reflexivity|].
    f_equal; [eapply Hu; eassumption|eapply IHus; eassumption].
  - f_equal. match goal with A : Forall2 _ xs ?a, B : Forall2 _ xs ?b |- ?a = ?b => rename A into R; rename B into R' end.
    clear H H'. revert R'. generalize ys0 as b. induction R as [|p q xs ys Hab F IHF]; intros b R'; inversion R'; subst; [reflexivity|].
    f_equal; [eapply IH; eassumption|auto].
  - f_equal. eapply IH; eassumption.
Qed.

Lemma restored_ex env u x : has env u x -> exists y, restored u x y.
Proof. intros H. destruct (from_to env u x H) as (y & _ & R). now exists y. Qed.

(** C83: what comes back from the recorded bytes is the original with every [dont_care!]
    value replaced by the expression's, with postcard, *)
Theorem C83_round_trip_postcard :
  forall (eof_zero : bool) (env : nat -> ty) (u : uty) (x y : uval) (rest : bytes),
    has env u x -> restored u x y -> Forall short (strings (to_val u x)) ->
    exists f, forall g, f <= g -> exists v,
      deserialize eof_zero false env g (shape u) (serialize eof_zero false (to_val u x) ++ rest) = Value v /\
      from_val u v = Some y.
Proof.
  intros z env u x y rest H R S. destruct (C14_round_trip z env (shape u) (to_val u x) rest (to_wt env u x H) S) as (f & D).
  exists f. intros g G. exists (to_val u x). split; [auto|].
  destruct (from_to env u x H) as (y' & E & R'). rewrite E. f_equal. eapply restored_unique; eassumption.
Qed.
Print Assumptions C83_round_trip_postcard.

(** and with bincode. *)
Theorem C83_round_trip_bincode :
  forall (env : nat -> ty) (u : uty) (x y : uval) (rest : bytes),
    has env u x -> restored u x y -> (claimed (to_val u x) <= 2 ^ 30)%N ->
    exists f, forall g, f <= g -> exists v,
      Bincode.deserialize env g (shape u) (Bincode.serialize (to_val u x) ++ rest) = Value v /\ from_val u v = Some y.
Proof.
  intros env u x y rest H R S. destruct (C18_round_trip env (shape u) (to_val u x) rest (to_wt env u x H)) as (f & D).
  exists f. intros g G. exists (to_val u x). specialize (D g G). apply N.leb_le in S. rewrite S in D. split; [exact D|].
  destruct (from_to env u x H) as (y' & E & R'). rewrite E. f_equal. eapply restored_unique; eassumption.
Qed.
Print Assumptions C83_round_trip_bincode.

(** C83: two values are recorded identically exactly if they differ in [dont_care!] values only. *)
Theorem C83_same_record_exactly :
  forall (z k : bool) (env : nat -> ty) (u : uty) (x1 x2 : uval),
    has env u x1 -> has env u x2 ->
    (serialize z k (to_val u x1) = serialize z k (to_val u x2) <-> exists y, restored u x1 y /\ restored u x2 y).
Proof.
  intros z k env u x1 x2 H1 H2. split.
  - intros E. destruct (C15_injective z k env (shape u) (to_val u x1) (to_val u x2) [] [] (to_wt _ _ _ H1) (to_wt _ _ _ H2)) as (V & _); [now rewrite E|].
    destruct (from_to env u x1 H1) as (y & E1 & R1), (from_to env u x2 H2) as (y' & E2 & R2).
    rewrite V, E2 in E1. injection E1 as ->. eauto.
  - intros (y & R1 & R2). now rewrite (restored_to _ _ _ R1), (restored_to _ _ _ R2).
Qed.
Print Assumptions C83_same_record_exactly.

(** C83: a [dont_care!] value takes no room in the recorded bytes, in either format. *)
Theorem C83_takes_no_room :
  forall (z k : bool) (e n : nat),
    serialize z k (to_val (UDontCare e) (XAny n)) = [] /\ Bincode.serialize (to_val (UDontCare e) (XAny n)) = [].
Proof. intros z k e n. split; reflexivity. Qed.
Print Assumptions C83_takes_no_room.

(** A vector of pairs of a byte and something that is not recorded. *)
Example C83_example :
  let u := UVec (UStruct [UBase TU8; UDontCare 42]) in
  let x := XVec [XStruct [XBase (VU8 "a"); XAny 1]; XStruct [XBase (VU8 "b"); XAny 2]] in
  let y := XVec [XStruct [XBase (VU8 "a"); XAny 42]; XStruct [XBase (VU8 "b"); XAny 42]] in
  has (fun _ => TUnit) u x /\ restored u x y /\
  serialize false false (to_val u x) = ["002"; "a"; "b"]%char /\
  match deserialize false false (fun _ => TUnit) 5 (shape u) ["002"; "a"; "b"]%char with
  | Value v => from_val u v
  | _ => None
  end = Some y.
Proof.
  cbv zeta. split.
  { constructor; [reflexivity|]. repeat (constructor; try apply wt_u8). }
  split; [|split; vm_compute; reflexivity].
  constructor. repeat constructor.
Qed.

(** ** C84 *)

Module M := MacroArgs.

(** C84: [convert = "&t, ident"] after [leak!(t, ident)] preserves every argument, exactly if
    borrowing from an owned copy gives back the value. *)
Theorem C84_leak_converts_iff :
  forall (w : M.world) (t ident : Syntax.rty) (lt : option str) (to_owned borrow : M.val -> M.val),
    leaks w t ident to_owned borrow ->
    (M.converts w ident (Syntax.RRef lt false t) <->
     forall v, M.of_type v (M.sem t) -> borrow (to_owned v) = v).
Proof.
  intros w t ident lt to_owned borrow (F & I). split.
  - intros C v V. destruct (C (M.VRef v) V) as (v' & E & E'). rewrite F in E. injection E as <-.
    cbn [M.sem] in E'. rewrite I in E'. now injection E' as ->.
  - intros B v V. cbn [M.sem M.of_type] in V. destruct v as [v| | | | |]; try contradiction.
    exists (to_owned v). split; [apply F|]. cbn [M.sem]. rewrite I. now rewrite B.
Qed.
Print Assumptions C84_leak_converts_iff.

(** C84: so the function is called with the same reference contents as in the recorded call. *)
Theorem C84_leak_argument :
  forall (w : M.world) (c : M.table) (x : str) (t ident : Syntax.rty) (lt : option str) (to_owned borrow : M.val -> M.val)
         (v : M.val) (stored : Syntax.rty) (s d : M.expr),
    leaks w t ident to_owned borrow ->
    (forall v, M.of_type v (M.sem t) -> borrow (to_owned v) = v) ->
    M.tget c (Syntax.toks (Syntax.RRef lt false t)) = Some ident ->
    M.of_type v (M.sem t) ->
    snd (M.map_typed_arg c [] x (M.EVar x) (Syntax.RRef lt false t)) = (stored, s, d) ->
    exists v', M.ev w (fun y => if str_eqb y x then Some (M.sem (Syntax.RRef lt false t), M.VRef v) else None) (fun _ => None) s (M.sem stored) v' /\
      M.ev w (fun _ => None) (fun y => if str_eqb y x then Some (stored, v') else None) d (M.sem (Syntax.RRef lt false t)) (M.VRef v).
Proof.
  intros w c x t ident lt to_owned borrow v stored s d L B C V E.
  apply (PropsMacroArgs.C20_round_trip w c x (Syntax.RRef lt false t) (M.VRef v) stored s d); [|exact V|exact E].
  apply M.st_convert with (to := ident); [exact C|]. now apply (C84_leak_converts_iff w t ident lt to_owned borrow L).
Qed.
Print Assumptions C84_leak_argument.

(** C84: fields marked [serde(with = "test_fuzz::serde_ref")] (or [serde_ref_mut]) are
    stored as what they refer to and come back as references to it. *)
Theorem C84_serde_ref :
  forall (X R : Type) (inner : X -> outcome R) (x : X) (s : Combinators.store X) (r : outcome X) (next : nat),
    serialize_ref inner x s = inner x /\ serialize_ref_mut inner x s = inner x /\
    (r = Ret x -> deserialize_ref r s next = Ret (Combinators.VRef (Combinators.VLeaf x)) /\
                  deserialize_ref_mut r s next = Ret (Combinators.VRefMut (Combinators.VLeaf x))) /\
    (forall e, r = Err e -> deserialize_ref r s next = Err e /\ deserialize_ref_mut r s next = Err e) /\
    (r = Panic -> deserialize_ref r s next = Panic /\ deserialize_ref_mut r s next = Panic).
Proof.
  intros X R inner x s r next. split; [reflexivity|]. split; [reflexivity|].
  split; [intros ->; split; reflexivity|]. split; [intros e ->; split; reflexivity|intros ->; split; reflexivity].
Qed.
Print Assumptions C84_serde_ref.

(** [leak!(str, LeakedStr)] with [convert = "&str, LeakedStr"]. *)
Example C84_example :
  let own v := match v with M.VStr s => M.VString s | v => v end in
  let borrow v := match v with M.VString s => M.VStr s | v => v end in
  let w := {| M.clonable := fun _ => True;
              M.from_ref := fun _ _ v => match v with M.VRef v => Some (own v) | _ => None end;
              M.into := fun _ _ v => Some (M.VRef (borrow v)) |} in
  leaks w (Syntax.rname "str") (Syntax.rname "LeakedStr") own borrow /\
  M.converts w (Syntax.rname "LeakedStr") (Syntax.RRef None false (Syntax.rname "str")) /\
  M.from_ref w (Syntax.rname "LeakedStr") (Syntax.RRef None false (Syntax.rname "str")) (M.VRef (M.VStr (lit "x"))) = Some (M.VString (lit "x")).
Proof.
  cbv zeta. match goal with |- ?L /\ _ => assert (K : L) by (split; reflexivity) end.
  split; [exact K|]. split; [|reflexivity].
  apply (C84_leak_converts_iff _ _ _ None _ _ K). intros v V. destruct v; cbn in V; try contradiction; reflexivity.
Qed.
