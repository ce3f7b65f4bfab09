(** Facts about decoding arbitrary input that hold for both formats. *)
From Coq Require Import List Ascii String Bool Arith Lia NArith ZArith ZifyBool ZifyN ZifyNat.
From Verif Require Import Base Utf8 Serde.
Import ListNotations.
Local Open Scope nat_scope.

(** ** Specifications *)

(** What is read is a prefix of the input. *)
Definition consumes {A} (x : rd A) : Prop :=
  forall s b a s' b', x (s, b) = Ok a (s', b') -> exists p, s = p ++ s'.
(** At least one byte is read. *)
Definition consumes1 {A} (x : rd A) : Prop :=
  forall s b a s' b', x (s, b) = Ok a (s', b') -> exists p, s = p ++ s' /\ p <> [].
(** More input does not change what is read. *)
Definition extends {A} (x : rd A) : Prop :=
  forall s b a s' b' more, x (s, b) = Ok a (s', b') -> x (s ++ more, b) = Ok a (s' ++ more, b').
Definition never_over {A} (x : rd A) : Prop := forall s, x s <> Over.

(** Every result satisfies [P]. *)
Definition yields {A} (P : A -> Prop) (x : rd A) : Prop := forall s a s', x s = Ok a s' -> P a.

Record sane (c : codec) : Prop := {
  s_byte : consumes (d_byte c); s_uint : forall w, consumes (d_uint c w);
  s_char : consumes (d_char c); s_block : forall n, consumes (d_block c n);
  o_byte : never_over (d_byte c); o_uint : forall w, never_over (d_uint c w);
  o_char : never_over (d_char c); o_block : forall n, never_over (d_block c n);
  y_uint : forall w, yields (fun n => (n < 2 ^ bits w)%N) (d_uint c w);
  y_char : yields one_char (d_char c);
  y_block : forall n, yields (fun s => N.of_nat (List.length s) = n) (d_block c n);
}.

(** Reading past the end fails. *)
Record strict (c : codec) : Prop := {
  x_byte : extends (d_byte c); x_uint : forall w, extends (d_uint c w);
  x_char : extends (d_char c); x_block : forall n, extends (d_block c n);
  c1_byte : consumes1 (d_byte c); c1_uint : forall w, consumes1 (d_uint c w); c1_char : consumes1 (d_char c);
  c1_block : forall n, n <> 0%N -> consumes1 (d_block c n);
}.

(** ** Combinators *)

Lemma rbind_ok {A B} (x : rd A) (f : A -> rd B) s v s2 : rbind x f s = Ok v s2 -> exists a s1, x s = Ok a s1 /\ f a s1 = Ok v s2.
Proof. unfold rbind. destruct (x s) as [a s1| |]; try discriminate. eauto. Qed.

Lemma consumes_ret {A} (a : A) : consumes (rret a).
Proof. intros s b a' s' b' E. injection E as <- <- <-. now exists []. Qed.
Lemma consumes_fail {A} : consumes (@rfail A).
Proof. intros s b a' s' b' E. discriminate. Qed.
Lemma consumes_bind {A B} (x : rd A) (f : A -> rd B) : consumes x -> (forall a, consumes (f a)) -> consumes (rbind x f).
Proof.
  intros X F s b v s2 b2 E. apply rbind_ok in E as (a & [s1 b1] & E1 & E2).
  apply X in E1 as [p ->]. apply F in E2 as [q ->]. exists (p ++ q). now rewrite app_assoc.
Qed.
Lemma consumes_repeat {A} (x : rd A) n : consumes x -> consumes (rrepeat x n).
Proof.
  intros X. induction n as [|n IH]; [apply consumes_ret|]. apply consumes_bind; [exact X|]. intros a.
  apply consumes_bind; [exact IH|]. intros l. apply consumes_ret.
Qed.
Lemma consumes_list {A} (xs : list (rd A)) : Forall consumes xs -> consumes (rlist xs).
Proof.
  induction 1 as [|x xs X F IH]; [apply consumes_ret|]. apply consumes_bind; [exact X|]. intros a.
  apply consumes_bind; [exact IH|]. intros l. apply consumes_ret.
Qed.

Lemma consumes1_bind_l {A B} (x : rd A) (f : A -> rd B) : consumes1 x -> (forall a, consumes (f a)) -> consumes1 (rbind x f).
Proof.
  intros X F s b v s2 b2 E. apply rbind_ok in E as (a & [s1 b1] & E1 & E2).
  apply X in E1 as (p & -> & N). apply F in E2 as [q ->]. exists (p ++ q). split; [now rewrite app_assoc|].
  destruct p; [contradiction|discriminate].
Qed.

Lemma extends_ret {A} (a : A) : extends (rret a).
Proof. intros s b a' s' b' more E. injection E as <- <- <-. reflexivity. Qed.
Lemma extends_fail {A} : extends (@rfail A).
Proof. intros s b a' s' b' more E. discriminate. Qed.
Lemma extends_bind {A B} (x : rd A) (f : A -> rd B) : extends x -> (forall a, extends (f a)) -> extends (rbind x f).
Proof.
  intros X F s b v s2 b2 more E. apply rbind_ok in E as (a & [s1 b1] & E1 & E2).
  unfold rbind. rewrite (X _ _ _ _ _ more E1). exact (F _ _ _ _ _ _ more E2).
Qed.
Lemma extends_repeat {A} (x : rd A) n : extends x -> extends (rrepeat x n).
Proof.
  intros X. induction n as [|n IH]; [apply extends_ret|]. apply extends_bind; [exact X|]. intros a.
  apply extends_bind; [exact IH|]. intros l. apply extends_ret.
Qed.
Lemma extends_list {A} (xs : list (rd A)) : Forall extends xs -> extends (rlist xs).
Proof.
  induction 1 as [|x xs X F IH]; [apply extends_ret|]. apply extends_bind; [exact X|]. intros a.
  apply extends_bind; [exact IH|]. intros l. apply extends_ret.
Qed.

Lemma yields_repeat {A} (P : A -> Prop) (x : rd A) n : yields P x -> yields (fun l => List.length l = n /\ Forall P l) (rrepeat x n).
Proof.
  intros X. induction n as [|n IH]; intros s l s' E.
  - injection E as <- <-. auto.
  - apply rbind_ok in E as (a & s1 & E1 & E). apply rbind_ok in E as (l1 & s2 & E2 & E). injection E as <- <-.
    apply X in E1. apply IH in E2 as [L F]. split; [cbn; now rewrite L|]. now constructor.
Qed.
Lemma yields_list {A T} (P : T -> A -> Prop) (x : T -> rd A) ts : Forall (fun t => yields (P t) (x t)) ts ->
  yields (fun l => Forall2 P ts l) (rlist (map x ts)).
Proof.
  induction 1 as [|t ts X F IH]; intros s l s' E.
  - injection E as <- <-. constructor.
  - apply rbind_ok in E as (a & s1 & E1 & E). apply rbind_ok in E as (l1 & s2 & E2 & E). injection E as <- <-.
    constructor; [exact (X _ _ _ E1)|exact (IH _ _ _ E2)].
Qed.

(** ** Decoding *)

Section Dec.
  Variables (c : codec) (env : nat -> ty).

  Section Sane.
    Hypothesis C : sane c.

    Lemma d_bool_consumes : consumes (d_bool c).
    Proof.
      apply consumes_bind; [apply C|]. intros a. destruct (byte a =? 0)%N; [apply consumes_ret|].
      destruct (byte a =? 1)%N; [apply consumes_ret|apply consumes_fail].
    Qed.

    Lemma dec_consumes : forall f t, consumes (dec c env f t).
    Proof.
      induction f as [|f IH]; intros t; [intros s b a s' b' E; discriminate|].
      destruct t; cbn [dec]; try (apply consumes_bind; [apply C|intros a; apply consumes_ret]); try apply IH.
      - apply consumes_bind; [apply d_bool_consumes|intros a; apply consumes_ret].
      - apply consumes_bind; [apply C|]. intros n. apply consumes_bind; [apply C|]. intros s.
        destruct (valid_utf8 s); [apply consumes_ret|apply consumes_fail].
      - apply consumes_bind; [apply C|]. intros n. apply consumes_bind; [apply C|]. intros s. apply consumes_ret.
      - apply consumes_ret.
      - apply consumes_bind; [apply d_bool_consumes|]. intros [|]; [|apply consumes_ret].
        apply consumes_bind; [apply IH|intros v; apply consumes_ret].
      - apply consumes_bind; [apply C|]. intros n. apply consumes_bind; [apply consumes_repeat, IH|intros v; apply consumes_ret].
      - apply consumes_bind; [apply consumes_list|intros v; apply consumes_ret]. apply Forall_forall. intros x I.
        apply in_map_iff in I as (t & <- & _). apply IH.
      - apply consumes_bind; [apply C|]. intros n. apply consumes_bind; [apply consumes_repeat|intros v; apply consumes_ret].
        apply consumes_bind; [apply IH|]. intros x. apply consumes_bind; [apply IH|]. intros y. apply consumes_ret.
      - apply consumes_bind; [apply C|]. intros n. destruct (nth_error ts (N.to_nat n)); [|apply consumes_fail].
        apply consumes_bind; [apply IH|intros v; apply consumes_ret].
    Qed.

    Lemma unzigzag_fits w n : (n < 2 ^ bits w)%N ->
      (- 2 ^ (Z.of_N (bits w) - 1) <= unzigzag n < 2 ^ (Z.of_N (bits w) - 1))%Z.
    Proof.
      intros H. unfold unzigzag.
      assert (P : (2 ^ Z.of_N (bits w) = 2 * 2 ^ (Z.of_N (bits w) - 1))%Z).
      { rewrite <- Z.pow_succ_r by (destruct w; cbn; lia). f_equal. lia. }
      assert (Q : Z.of_N (2 ^ bits w) = (2 ^ Z.of_N (bits w))%Z) by (rewrite N2Z.inj_pow; reflexivity).
      assert (D : (n = 2 * (n / 2) + n mod 2)%N) by (apply N.div_mod; lia).
      assert (M : (n mod 2 < 2)%N) by (apply N.mod_lt; lia).
      destruct (N.even n); lia.
    Qed.

    Lemma dec_wt : forall f t, yields (wt env t) (dec c env f t).
    Proof.
      induction f as [|f IH]; intros t s v s' E; [discriminate|].
      destruct t; cbn [dec] in E;
        try (apply rbind_ok in E as (a & s1 & E1 & E); injection E as <- <-; now constructor).
      - apply rbind_ok in E as (n & s1 & E1 & E). injection E as <- <-. constructor. exact (y_uint c C w _ _ _ E1).
      - apply rbind_ok in E as (n & s1 & E1 & E). injection E as <- <-. constructor. apply unzigzag_fits. exact (y_uint c C w _ _ _ E1).
      - apply rbind_ok in E as (b & s1 & E1 & E). injection E as <- <-. constructor. apply (y_block c C) in E1. lia.
      - apply rbind_ok in E as (b & s1 & E1 & E). injection E as <- <-. constructor. apply (y_block c C) in E1. lia.
      - apply rbind_ok in E as (b & s1 & E1 & E). injection E as <- <-. constructor. exact (y_char c C _ _ _ E1).
      - apply rbind_ok in E as (n & s1 & E1 & E). apply rbind_ok in E as (u & s2 & E2 & E).
        destruct (valid_utf8 u) eqn:V; [|discriminate]. injection E as <- <-. constructor; [exact V|].
        apply (y_block c C) in E2. apply (y_uint c C W64) in E1. unfold fits_len. rewrite E2. exact E1.
      - apply rbind_ok in E as (n & s1 & E1 & E). apply rbind_ok in E as (u & s2 & E2 & E). injection E as <- <-. constructor.
        apply (y_block c C) in E2. apply (y_uint c C W64) in E1. unfold fits_len. rewrite E2. exact E1.
      - injection E as <- <-. constructor.
      - apply rbind_ok in E as ([|] & s1 & E1 & E).
        + apply rbind_ok in E as (u & s2 & E2 & E). injection E as <- <-. constructor. exact (IH _ _ _ _ E2).
        + injection E as <- <-. constructor.
      - apply rbind_ok in E as (n & s1 & E1 & E). apply rbind_ok in E as (u & s2 & E2 & E). injection E as <- <-.
        apply (yields_repeat (wt env t)) in E2 as [L F]; [|apply IH]. constructor; [|exact F].
        apply (y_uint c C W64) in E1. unfold fits_len. rewrite L, Nnat.N2Nat.id. exact E1.
      - apply rbind_ok in E as (u & s2 & E2 & E). injection E as <- <-. constructor.
        apply (yields_list (wt env)) in E2; [exact E2|]. apply Forall_forall. intros t _. apply IH.
      - apply rbind_ok in E as (n & s1 & E1 & E). apply rbind_ok in E as (u & s2 & E2 & E). injection E as <- <-.
        apply (yields_repeat (fun kv => wt env t1 (fst kv) /\ wt env t2 (snd kv))) in E2 as [L F].
        + constructor; [|exact F]. apply (y_uint c C W64) in E1. unfold fits_len. rewrite L, Nnat.N2Nat.id. exact E1.
        + intros s0 kv s3 H. apply rbind_ok in H as (x & s4 & X & H). apply rbind_ok in H as (y & s5 & Y & H).
          injection H as <- <-. split; [exact (IH _ _ _ _ X)|exact (IH _ _ _ _ Y)].
      - apply rbind_ok in E as (n & s1 & E1 & E). destruct (nth_error ts (N.to_nat n)) as [t|] eqn:T; [|discriminate].
        apply rbind_ok in E as (u & s2 & E2 & E). injection E as <- <-. econstructor; [exact T| |exact (IH _ _ _ _ E2)].
        apply (y_uint c C W32) in E1. rewrite Nnat.N2Nat.id. exact E1.
      - constructor. exact (IH _ _ _ _ E).
    Qed.
  End Sane.

  (** ** More input *)

  Lemma dec_extends : strict c -> forall f t, extends (dec c env f t).
  Proof.
    intros C.
    assert (DB : extends (d_bool c)).
    { apply extends_bind; [apply C|]. intros a. destruct (byte a =? 0)%N; [apply extends_ret|].
      destruct (byte a =? 1)%N; [apply extends_ret|apply extends_fail]. }
    induction f as [|f IH]; intros t; [intros s b a s' b' more E; discriminate|].
    destruct t; cbn [dec]; try (apply extends_bind; [apply C|intros a; apply extends_ret]); try apply IH.
    - apply extends_bind; [apply DB|intros a; apply extends_ret].
    - apply extends_bind; [apply C|]. intros n. apply extends_bind; [apply C|]. intros s.
      destruct (valid_utf8 s); [apply extends_ret|apply extends_fail].
    - apply extends_bind; [apply C|]. intros n. apply extends_bind; [apply C|]. intros s. apply extends_ret.
    - apply extends_ret.
    - apply extends_bind; [apply DB|]. intros [|]; [|apply extends_ret].
      apply extends_bind; [apply IH|intros v; apply extends_ret].
    - apply extends_bind; [apply C|]. intros n. apply extends_bind; [apply extends_repeat, IH|intros v; apply extends_ret].
    - apply extends_bind; [apply extends_list|intros v; apply extends_ret]. apply Forall_forall. intros x I.
      apply in_map_iff in I as (t & <- & _). apply IH.
    - apply extends_bind; [apply C|]. intros n. apply extends_bind; [apply extends_repeat|intros v; apply extends_ret].
      apply extends_bind; [apply IH|]. intros x. apply extends_bind; [apply IH|]. intros y. apply extends_ret.
    - apply extends_bind; [apply C|]. intros n. destruct (nth_error ts (N.to_nat n)); [|apply extends_fail].
      apply extends_bind; [apply IH|intros v; apply extends_ret].
  Qed.

  (** ** The recursion bound *)

  (** [y] does whatever [x] does unless [x] runs out of stack. *)
  Definition refines {A} (x y : rd A) : Prop := forall s, x s <> Over -> y s = x s.

  Lemma refines_refl {A} (x : rd A) : refines x x.
  Proof. intros s _. reflexivity. Qed.
  Lemma refines_bind {A B} (x y : rd A) (f g : A -> rd B) : refines x y -> (forall a, refines (f a) (g a)) -> refines (rbind x f) (rbind y g).
  Proof.
    intros X F s H. unfold rbind in *. destruct (x s) as [a s1| |] eqn:E.
    - rewrite (X s) by congruence. rewrite E. now apply F.
    - rewrite (X s) by congruence. now rewrite E.
    - contradiction.
  Qed.
  Lemma refines_repeat {A} (x y : rd A) n : refines x y -> refines (rrepeat x n) (rrepeat y n).
  Proof.
    intros X. induction n as [|n IH]; [apply refines_refl|]. apply refines_bind; [exact X|]. intros a.
    apply refines_bind; [exact IH|]. intros l. apply refines_refl.
  Qed.
  Lemma refines_list {A T} (x y : T -> rd A) ts : (forall t, refines (x t) (y t)) -> refines (rlist (map x ts)) (rlist (map y ts)).
  Proof.
    intros X. induction ts as [|t ts IH]; [apply refines_refl|]. apply refines_bind; [apply X|]. intros a.
    apply refines_bind; [exact IH|]. intros l. apply refines_refl.
  Qed.

  Lemma dec_S : forall f t, refines (dec c env f t) (dec c env (S f) t).
  Proof.
    induction f as [|f IH]; intros t; [intros s H; cbn [dec] in H; contradiction|].
    change (dec c env (S (S f)) t) with
      (match t with
        | TBool => rbind (d_bool c) (fun b => rret (VBool b))
        | TU8 => rbind (d_byte c) (fun a => rret (VU8 a))
        | TI8 => rbind (d_byte c) (fun a => rret (VI8 a))
        | TUInt w => rbind (d_uint c w) (fun n => rret (VUInt w n))
        | TSInt w => rbind (d_uint c w) (fun n => rret (VSInt w (unzigzag n)))
        | TF32 => rbind (d_block c 4) (fun b => rret (VF32 b))
        | TF64 => rbind (d_block c 8) (fun b => rret (VF64 b))
        | TChar => rbind (d_char c) (fun u => rret (VChar u))
        | TString => rbind (d_uint c W64) (fun n => rbind (d_block c n) (fun s =>
                     if valid_utf8 s then rret (VString s) else rfail))
        | TBytes => rbind (d_uint c W64) (fun n => rbind (d_block c n) (fun s => rret (VBytes s)))
        | TUnit => rret VUnit
        | TOption t => rbind (d_bool c) (fun b => if b then rbind (dec c env (S f) t) (fun v => rret (VSome v)) else rret VNone)
        | TSeq t => rbind (d_uint c W64) (fun n => rbind (rrepeat (dec c env (S f) t) (N.to_nat n)) (fun vs => rret (VSeq vs)))
        | TTuple ts => rbind (rlist (map (dec c env (S f)) ts)) (fun vs => rret (VTuple vs))
        | TMap k t => rbind (d_uint c W64) (fun n =>
                      rbind (rrepeat (rbind (dec c env (S f) k) (fun x => rbind (dec c env (S f) t) (fun y => rret (x, y)))) (N.to_nat n)) (fun kvs =>
                      rret (VMap kvs)))
        | TEnum ts => rbind (d_uint c W32) (fun n =>
                      match nth_error ts (N.to_nat n) with
                      | Some t => rbind (dec c env (S f) t) (fun v => rret (VEnum (N.to_nat n) v))
                      | None => rfail
                      end)
        | TNamed n => dec c env (S f) (env n)
        end).
    destruct t; cbn [dec]; try apply refines_refl.
    - apply refines_bind; [apply refines_refl|]. intros [|]; [|apply refines_refl].
      apply refines_bind; [apply IH|intros v; apply refines_refl].
    - apply refines_bind; [apply refines_refl|]. intros n. apply refines_bind; [apply refines_repeat, IH|intros v; apply refines_refl].
    - apply refines_bind; [apply refines_list, IH|intros v; apply refines_refl].
    - apply refines_bind; [apply refines_refl|]. intros n. apply refines_bind; [apply refines_repeat|intros v; apply refines_refl].
      apply refines_bind; [apply IH|]. intros x. apply refines_bind; [apply IH|]. intros y. apply refines_refl.
    - apply refines_bind; [apply refines_refl|]. intros n. destruct (nth_error ts (N.to_nat n)); [|apply refines_refl].
      apply refines_bind; [apply IH|intros v; apply refines_refl].
    - apply IH.
  Qed.

  Lemma dec_le f g t s : f <= g -> dec c env f t s <> Over -> dec c env g t s = dec c env f t s.
  Proof.
    induction 1 as [|g L IH]; intros H; [reflexivity|]. rewrite dec_S; [now apply IH|]. now rewrite IH.
  Qed.
End Dec.

(** The height of a type; names count as leaves. *)
Fixpoint height (t : ty) : nat :=
  S (match t with
     | TOption t | TSeq t => height t
     | TTuple ts | TEnum ts => list_max (map height ts)
     | TMap k t => Nat.max (height k) (height t)
     | _ => 0
     end).

Lemma height_in t ts : In t ts -> height t <= list_max (map height ts).
Proof.
  intros I. pose proof (proj1 (list_max_le (map height ts) (list_max (map height ts))) (le_n _)) as F.
  rewrite Forall_forall in F. apply F. now apply in_map.
Qed.

(** No names. *)
Fixpoint plain (t : ty) : bool :=
  match t with
  | TOption t | TSeq t => plain t
  | TTuple ts | TEnum ts => forallb plain ts
  | TMap k t => plain k && plain t
  | TNamed _ => false
  | _ => true
  end.

(** Every value of the type takes at least one byte. *)
Fixpoint taking (t : ty) : bool :=
  match t with
  | TTuple ts => existsb taking ts
  | TUnit | TNamed _ => false
  | _ => true
  end.

(** No name is reached before a byte has been read. *)
Fixpoint guarded (t : ty) : bool :=
  match t with
  | TTuple ts => (fix g ts := match ts with [] => true | t :: ts => guarded t && (taking t || g ts) end) ts
  | TNamed _ => false
  | _ => true
  end.

Section Bound.
  Variables (c : codec) (env : nat -> ty).
  Hypothesis C : sane c.

  Definition over_free {A} (x : rd A) (s : st) : Prop := x s <> Over.

  Lemma over_bind {A B} (x : rd A) (f : A -> rd B) s :
    x s <> Over -> (forall a s', x s = Ok a s' -> f a s' <> Over) -> rbind x f s <> Over.
  Proof. intros X F. unfold rbind. destruct (x s) as [a s'| |] eqn:E; [now apply F|discriminate|contradiction]. Qed.

  Lemma over_bool s : d_bool c s <> Over.
  Proof.
    apply over_bind; [apply (o_byte c C)|]. intros a s' _. destruct (byte a =? 0)%N; [discriminate|]. destruct (byte a =? 1)%N; discriminate.
  Qed.

  Lemma over_repeat {A} (x : rd A) n (P : bytes -> Prop) :
    consumes x -> (forall p s, P (p ++ s) -> P s) -> (forall s b, P s -> x (s, b) <> Over) ->
    forall s b, P s -> rrepeat x n (s, b) <> Over.
  Proof.
    intros X PP H. induction n as [|n IH]; intros s b Hs; [discriminate|]. apply over_bind; [now apply H|].
    intros a [s1 b1] E. apply X in E as [p ->]. apply over_bind; [|discriminate]. apply IH. eapply PP; eauto.
  Qed.

  (** Types without names are decoded within their height. *)
  Lemma plain_total : forall f t s, plain t = true -> height t <= f -> dec c env f t s <> Over.
  Proof.
    induction f as [|f IH]; intros t s P H; [destruct t; cbn in H; lia|].
    destruct t; cbn [dec plain height] in *; try discriminate; try (apply over_bind; [apply C|discriminate]).
    - apply over_bind; [apply over_bool|discriminate].
    - apply over_bind; [apply C|]. intros n s1 _. apply over_bind; [apply C|]. intros u s2 _. destruct (valid_utf8 u); discriminate.
    - apply over_bind; [apply C|]. intros n s1 _. apply over_bind; [apply C|]. intros u s2 _. discriminate.
    - apply over_bind; [apply over_bool|]. intros [|] s1 _; [|discriminate]. apply over_bind; [|discriminate]. apply IH; [exact P|lia].
    - apply over_bind; [apply C|]. intros n [s1 b1] _. apply over_bind; [|discriminate].
      apply (over_repeat _ _ (fun _ => True)); [apply dec_consumes, C|auto| |auto]. intros s2 b2 _. apply IH; [exact P|lia].
    - apply over_bind; [|discriminate]. assert (F : Forall (fun t => plain t = true /\ height t <= f) ts).
      { apply Forall_forall. intros t I. rewrite forallb_forall in P. split; [now apply P|]. apply height_in in I. lia. }
      clear P H. revert s. induction F as [|t ts [P H] F IHF]; intros s; [discriminate|]. cbn [map rlist].
      apply over_bind; [now apply IH|]. intros a s1 _. apply over_bind; [apply IHF|discriminate].
    - apply andb_true_iff in P as [P1 P2]. apply over_bind; [apply C|]. intros n [s1 b1] _. apply over_bind; [|discriminate].
      apply (over_repeat _ _ (fun _ => True)); [|auto| |auto].
      + apply consumes_bind; [apply dec_consumes, C|]. intros x. apply consumes_bind; [apply dec_consumes, C|]. intros y. apply consumes_ret.
      + intros s2 b2 _. apply over_bind; [apply IH; [exact P1|lia]|]. intros x s3 _.
        apply over_bind; [apply IH; [exact P2|lia]|discriminate].
    - apply over_bind; [apply C|]. intros n s1 _. destruct (nth_error ts (N.to_nat n)) as [t|] eqn:E; [|discriminate].
      apply nth_error_In in E. apply over_bind; [|discriminate]. rewrite forallb_forall in P. apply IH; [now apply P|].
      apply height_in in E. lia.
  Qed.

  (** Recursive types. *)
  Variable H : nat.
  Hypothesis D : forall n, guarded (env n) = true /\ height (env n) <= H.
  Hypothesis X : strict c.

  Lemma shorter {A} (l p s : list A) : l = p ++ s -> p <> [] -> List.length s < List.length l.
  Proof. intros -> N. rewrite app_length. destruct p; [contradiction|cbn; lia]. Qed.

  Lemma d_bool_consumes1 : consumes1 (d_bool c).
  Proof.
    apply consumes1_bind_l; [apply X|]. intros a. destruct (byte a =? 0)%N; [apply consumes_ret|].
    destruct (byte a =? 1)%N; [apply consumes_ret|apply consumes_fail].
  Qed.

  Lemma consumes1_bind_r {A B} (x : rd A) (f : A -> rd B) : consumes x -> (forall a, consumes1 (f a)) -> consumes1 (rbind x f).
  Proof.
    intros Hx F s b v s2 b2 E. apply rbind_ok in E as (a & [s1 b1] & E1 & E2).
    apply Hx in E1 as (p & ->). apply F in E2 as (q & -> & N). exists (p ++ q). split; [now rewrite app_assoc|].
    destruct p; [exact N|discriminate].
  Qed.

  Lemma taking_consumes1 : forall f t, taking t = true -> consumes1 (dec c env f t).
  Proof.
    induction f as [|f IH]; intros t T; [intros s b a s' b' E; discriminate|].
    destruct t; cbn [dec taking] in *; try discriminate;
      try (apply consumes1_bind_l; [first [apply X | apply d_bool_consumes1]|intros a]); try apply consumes_ret; try lia.
    - apply consumes_bind; [apply C|]. intros s. destruct (valid_utf8 s); [apply consumes_ret|apply consumes_fail].
    - apply consumes_bind; [apply C|]. intros s. apply consumes_ret.
    - destruct a; [|apply consumes_ret]. apply consumes_bind; [apply dec_consumes, C|intros v; apply consumes_ret].
    - apply consumes_bind; [apply consumes_repeat, dec_consumes, C|intros v; apply consumes_ret].
    - apply consumes1_bind_l; [|intros v; apply consumes_ret].
      induction ts as [|t ts IHt]; [discriminate|]. cbn [existsb] in T. cbn [map rlist].
      assert (CL : consumes (rlist (map (dec c env f) ts))).
      { apply consumes_list, Forall_forall. intros x I. apply in_map_iff in I as (t' & <- & _). apply dec_consumes, C. }
      apply orb_true_iff in T as [T|T].
      + apply consumes1_bind_l; [now apply IH|]. intros a. apply consumes_bind; [exact CL|intros l; apply consumes_ret].
      + apply consumes1_bind_r; [apply dec_consumes, C|]. intros a. apply consumes1_bind_l; [now apply IHt|intros l; apply consumes_ret].
    - apply consumes_bind; [apply consumes_repeat|intros v; apply consumes_ret].
      apply consumes_bind; [apply dec_consumes, C|]. intros x. apply consumes_bind; [apply dec_consumes, C|]. intros y. apply consumes_ret.
    - destruct (nth_error ts (N.to_nat a)); [|apply consumes_fail].
      apply consumes_bind; [apply dec_consumes, C|intros v; apply consumes_ret].
  Qed.

  (** The stack needed. *)
  Definition need (t : ty) (l : nat) : nat := height t + (if guarded t then l else S l) * S H.

  Lemma need_any t l : need t l <= height t + S l * S H.
  Proof. unfold need. destruct (guarded t); lia. Qed.

  Lemma need_less t l l' : l' < l -> need t l' <= height t + l * S H.
  Proof. intros L. pose proof (need_any t l'). assert (S l' * S H <= l * S H) by (apply Nat.mul_le_mono_r; lia). lia. Qed.

  Lemma guarded_tuple t ts : guarded (TTuple (t :: ts)) = guarded t && (taking t || guarded (TTuple ts)).
  Proof. reflexivity. Qed.

  Lemma bounded : forall f t s b, need t (List.length s) <= f -> dec c env f t (s, b) <> Over.
  Proof.
    induction f as [|f IH]; intros t s b N; [destruct t; cbn in N; lia|].
    assert (LESS : forall t' s' b', List.length s' < List.length s -> height t' + List.length s * S H <= f -> dec c env f t' (s', b') <> Over).
    { intros t' s' b' L K. apply IH. pose proof (need_less t' _ _ L). lia. }
    destruct t; cbn [dec]; try (apply over_bind; [apply C|discriminate]).
    - apply over_bind; [apply over_bool|discriminate].
    - apply over_bind; [apply C|]. intros n s1 _. apply over_bind; [apply C|]. intros u s2 _. destruct (valid_utf8 u); discriminate.
    - apply over_bind; [apply C|]. intros n s1 _. apply over_bind; [apply C|]. intros u s2 _. discriminate.
    - discriminate.
    - unfold need in N. cbn [height guarded] in N.
      apply over_bind; [apply over_bool|]. intros [|] [s1 b1] E; [|discriminate]. apply over_bind; [|discriminate].
      apply d_bool_consumes1 in E as (p & E & P). apply LESS; [eapply shorter; eauto|lia].
    - unfold need in N. cbn [height guarded] in N.
      apply over_bind; [apply C|]. intros n [s1 b1] E. apply (c1_uint c X W64) in E as (p & E & P). apply over_bind; [|discriminate].
      apply (over_repeat _ _ (fun s' => List.length s' < List.length s)); [apply dec_consumes, C| | |eapply shorter; eauto].
      + intros q s2. rewrite app_length. lia.
      + intros s2 b2 L. apply LESS; [exact L|lia].
    - apply over_bind; [|discriminate].
      assert (ANY : forall ts s' b', List.length s' < List.length s -> list_max (map height ts) + List.length s * S H <= f ->
                      rlist (map (dec c env f) ts) (s', b') <> Over).
      { clear ts N. induction ts as [|t ts IHt]; intros s' b' L K; [discriminate|]. cbn [map rlist] in *. cbn [list_max fold_right] in K.
        apply over_bind; [apply LESS; [exact L|lia]|]. intros a [s1 b1] E. apply (dec_consumes c env C) in E as [p ->].
        apply over_bind; [|discriminate]. apply IHt; [rewrite app_length in L; lia|unfold list_max in *; lia]. }
      destruct (guarded (TTuple ts)) eqn:G.
      + assert (K : list_max (map height ts) + List.length s * S H <= f).
        { unfold need in N. rewrite G in N. cbn [height] in N. lia. }
        clear N. assert (LE : forall t' s' b', List.length s' <= List.length s -> guarded t' = true -> height t' + List.length s * S H <= f -> dec c env f t' (s', b') <> Over).
        { intros t' s' b' L G' K'. apply IH. unfold need. rewrite G'.
          assert (List.length s' * S H <= List.length s * S H) by (apply Nat.mul_le_mono_r; lia). lia. }
        assert (AUX : forall s' b', List.length s' <= List.length s -> rlist (map (dec c env f) ts) (s', b') <> Over).
        { induction ts as [|t ts IHt]; intros s' b' L; [discriminate|]. rewrite guarded_tuple in G. apply andb_true_iff in G as [G1 G2].
          cbn [map rlist]. cbn [map list_max fold_right] in K.
          assert (K1 : height t + List.length s * S H <= f) by (unfold list_max in K; cbn in K; lia).
          assert (K2 : list_max (map height ts) + List.length s * S H <= f) by (unfold list_max in *; cbn in K; lia).
          apply over_bind; [now apply LE|]. intros a [s1 b1] E. apply over_bind; [|discriminate].
          apply orb_true_iff in G2 as [G2|G2].
          - apply (taking_consumes1 f t G2) in E as (p & E & P). apply ANY; [|exact K2]. apply shorter in E; [lia|exact P].
          - apply (dec_consumes c env C) in E as [p ->]. apply IHt; [exact G2|exact K2|]. rewrite app_length in L. lia. }
        now apply AUX.
      + assert (K : list_max (map height ts) + S (List.length s) * S H <= f).
        { unfold need in N. rewrite G in N. cbn [height] in N. lia. }
        clear N G ANY LESS. assert (LE : forall t' s' b', List.length s' <= List.length s -> height t' + S (List.length s) * S H <= f -> dec c env f t' (s', b') <> Over).
        { intros t' s' b' L K'. apply IH. pose proof (need_any t' (List.length s')).
          assert (S (List.length s') * S H <= S (List.length s) * S H) by (apply Nat.mul_le_mono_r; lia). lia. }
        assert (AUX : forall s' b', List.length s' <= List.length s -> rlist (map (dec c env f) ts) (s', b') <> Over).
        { induction ts as [|t ts IHt]; intros s' b' L; [discriminate|].
          cbn [map rlist]. cbn [map list_max fold_right] in K.
          assert (K1 : height t + S (List.length s) * S H <= f) by (unfold list_max in K; lia).
          assert (K2 : list_max (map height ts) + S (List.length s) * S H <= f) by (unfold list_max in *; lia).
          apply over_bind; [now apply LE|]. intros a [s1 b1] E. apply over_bind; [|discriminate].
          apply (dec_consumes c env C) in E as [p ->]. apply IHt; [exact K2|]. rewrite app_length in L. lia. }
        now apply AUX.
    - unfold need in N. cbn [height guarded] in N.
      apply over_bind; [apply C|]. intros n [s1 b1] E. apply (c1_uint c X W64) in E as (p & E & P). apply over_bind; [|discriminate].
      apply (over_repeat _ _ (fun s' => List.length s' < List.length s)); [| | |eapply shorter; eauto].
      + apply consumes_bind; [apply dec_consumes, C|]. intros x. apply consumes_bind; [apply dec_consumes, C|]. intros y. apply consumes_ret.
      + intros q s2. rewrite app_length. lia.
      + intros s2 b2 L. apply over_bind; [apply LESS; [exact L|lia]|]. intros x [s3 b3] E3. apply (dec_consumes c env C) in E3 as [q ->].
        apply over_bind; [apply LESS; [rewrite app_length in L; lia|lia]|discriminate].
    - unfold need in N. cbn [height guarded] in N.
      apply over_bind; [apply C|]. intros n [s1 b1] E. apply (c1_uint c X W32) in E as (p & E & P).
      destruct (nth_error ts (N.to_nat n)) as [t|] eqn:T; [|discriminate]. apply nth_error_In, height_in in T.
      apply over_bind; [|discriminate]. apply LESS; [eapply shorter; eauto|lia].
    - destruct (D n) as [G HH]. apply IH. unfold need in *. rewrite G. cbn [height guarded] in N. lia.
  Qed.
End Bound.
