(** Auto-generated values and their combination into arguments. *)
From Coq Require Import String List Ascii Bool Arith NArith ZArith Lia.
From Verif Require Import Base.
Import ListNotations.

Section Autos.
  (** Values of arguments, of whatever type. *)
  Context {V : Type}.

  (** Rust's [%] and indexing: both panic. *)
  Definition rem (a b : nat) : outcome nat := match b with 0 => Panic | _ => Ret (a mod b) end.
  Definition index (l : list V) (i : nat) : outcome V :=
    match nth_error l i with Some v => Ret v | None => Panic end.

  (** [Iterator::min] and [Iterator::max] (core). *)
  Definition fold1 (f : nat -> nat -> nat) (l : list nat) : option nat :=
    match l with [] => None | a :: l' => Some (fold_left f l' a) end.

  (** macro/src/lib.rs:1146-1153, the fields of the [i]-th [Args]; [k] is the
      number of the first field. *)
  Fixpoint auto_fields (i k : nat) (autos : list (list V)) : outcome (list V) :=
    match autos with
    | [] => Ret []
    | a :: rest =>
        bind (rem (i + k) (List.length a)) (fun j =>
        bind (index a j) (fun v =>
        bind (auto_fields i (S k) rest) (fun vs => Ret (v :: vs))))
    end.

  (** macro/src/lib.rs:1155-1160, the number of entries. *)
  Definition auto_max (autos : list (list V)) : nat :=
    let lens := map (@List.length V) autos in
    if 0 <? (match fold1 Nat.min lens with Some m => m | None => 1 end)
    then match fold1 Nat.max lens with Some m => m | None => 1 end
    else 0.

  (** macro/src/lib.rs:1136-1166, what the expression built by [args_from_autos]
      evaluates to.  The iterator is lazy in the code; here it is a list. *)
  Definition args_from_autos (autos : list (list V)) : outcome (list (list V)) :=
    mapM (fun i => auto_fields i 0 autos) (seq 0 (auto_max autos)).

  (** * Proofs *)

  Lemma fold_max_spec l a : let m := fold_left Nat.max l a in
    In m (a :: l) /\ forall x, In x (a :: l) -> x <= m.
  Proof.
    revert a; induction l as [|b l IH]; intros a; cbn [fold_left].
    - split; [now left|]. intros x [<-|[]]. lia.
    - destruct (IH (Nat.max a b)) as [I B]. split.
      + destruct I as [I|I]; [|right; right; exact I]. rewrite <- I.
        destruct (Nat.max_dec a b) as [->| ->]; [now left|right; now left].
      + intros x [<-|[<-|H]]; [| |apply B; now right];
          (etransitivity; [|apply B; now left]); lia.
  Qed.

  Lemma fold_min_spec l a : let m := fold_left Nat.min l a in
    In m (a :: l) /\ forall x, In x (a :: l) -> m <= x.
  Proof.
    revert a; induction l as [|b l IH]; intros a; cbn [fold_left].
    - split; [now left|]. intros x [<-|[]]. lia.
    - destruct (IH (Nat.min a b)) as [I B]. split.
      + destruct I as [I|I]; [|right; right; exact I]. rewrite <- I.
        destruct (Nat.min_dec a b) as [->| ->]; [now left|right; now left].
      + intros x [<-|[<-|H]]; [| |apply B; now right];
          (etransitivity; [apply B; now left|]); lia.
  Qed.

  Lemma auto_max_zero autos : In [] autos -> auto_max autos = 0.
  Proof.
    intros I. unfold auto_max. destruct autos as [|a autos]; [destruct I|]. cbn [map fold1].
    destruct (fold_min_spec (map (@List.length V) autos) (List.length a)) as [_ B].
    assert (L : In 0 (List.length a :: map (@List.length V) autos)).
    { apply (in_map (@List.length V)) in I. exact I. }
    apply B in L. destruct (0 <? _) eqn:E; [apply Nat.ltb_lt in E; lia|reflexivity].
  Qed.

  Lemma auto_max_pos autos : autos <> [] -> ~ In [] autos ->
    (exists a, In a autos /\ auto_max autos = List.length a) /\
    (forall a, In a autos -> 1 <= List.length a <= auto_max autos).
  Proof.
    intros Ne N. unfold auto_max. destruct autos as [|a0 autos]; [contradiction|]. cbn [map fold1].
    destruct (fold_min_spec (map (@List.length V) autos) (List.length a0)) as [I _].
    destruct (fold_max_spec (map (@List.length V) autos) (List.length a0)) as [J B].
    change (List.length a0 :: map (@List.length V) autos) with (map (@List.length V) (a0 :: autos)) in *.
    assert (P : forall a, In a (a0 :: autos) -> 1 <= List.length a).
    { intros a H. destruct a; [contradiction|cbn; lia]. }
    apply in_map_iff in I as (a & E & I). apply P in I. rewrite E in I.
    destruct (0 <? _) eqn:F; [|apply Nat.ltb_ge in F; lia]. split.
    - apply in_map_iff in J as (b & Eb & J). exists b. auto.
    - intros b H. split; [now apply P|]. apply B. now apply in_map.
  Qed.

  Lemma auto_fields_ok i : forall autos k, ~ In [] autos ->
    exists vs, auto_fields i k autos = Ret vs /\ List.length vs = List.length autos /\
      forall j a, nth_error autos j = Some a ->
        nth_error vs j = nth_error a ((i + (k + j)) mod List.length a).
  Proof.
    induction autos as [|a autos IH]; intros k N; cbn [auto_fields].
    - exists []. split; [reflexivity|]. split; [reflexivity|]. intros [|j] b H; discriminate.
    - destruct (List.length a) as [|n] eqn:L.
      { destruct a; [|discriminate]. destruct N. now left. }
      cbn [rem bind]. unfold index.
      assert (Lt : (i + k) mod S n < List.length a) by (rewrite L; apply Nat.mod_upper_bound; lia).
      destruct (nth_error a ((i + k) mod S n)) as [v|] eqn:Ev; [|apply nth_error_None in Ev; lia].
      cbn [bind]. destruct (IH (S k)) as (vs & -> & Lv & H); [intros K; apply N; now right|].
      cbn [bind]. exists (v :: vs). split; [reflexivity|]. split; [cbn; now rewrite Lv|].
      intros [|j] b E; cbn [nth_error] in *.
      + injection E as <-. now rewrite Nat.add_0_r, L, Ev.
      + rewrite (H j b E). f_equal. f_equal. lia.
  Qed.

  Lemma shift_mod len k j : j < len -> exists i, i < len /\ (i + k) mod len = j.
  Proof.
    intros H. assert (len <> 0) by lia.
    exists ((j + (len - k mod len)) mod len). split; [now apply Nat.mod_upper_bound|].
    rewrite Nat.add_mod_idemp_l by assumption.
    rewrite (Nat.div_mod k len) at 2 by assumption.
    pose proof (Nat.mod_upper_bound k len ltac:(assumption)).
    replace (j + (len - k mod len) + (len * (k / len) + k mod len)) with (j + (1 + k / len) * len) by lia.
    rewrite Nat.mod_add by assumption. now apply Nat.mod_small.
  Qed.

  Lemma mapM_total {A B : Type} (f : A -> outcome B) (g : A -> B) l :
    (forall a, In a l -> f a = Ret (g a)) -> mapM f l = Ret (map g l).
  Proof.
    induction l as [|a l IH]; intros H; cbn [mapM map]; [reflexivity|].
    rewrite (H a (or_introl eq_refl)). cbn [bind]. rewrite IH; [reflexivity|]. intros; apply H; now right.
  Qed.

  Lemma args_from_autos_ok autos :
    exists es, args_from_autos autos = Ret es /\ List.length es = auto_max autos /\
      forall i e, nth_error es i = Some e -> auto_fields i 0 autos = Ret e.
  Proof.
    unfold args_from_autos.
    set (g := fun i => match auto_fields i 0 autos with Ret e => e | _ => [] end).
    assert (H : forall i, In i (seq 0 (auto_max autos)) -> auto_fields i 0 autos = Ret (g i)).
    { intros i I. unfold g.
      assert (N : ~ In [] autos).
      { intros K. rewrite (auto_max_zero autos K) in I. destruct I. }
      destruct (auto_fields_ok i autos 0 N) as (vs & -> & _). reflexivity. }
    exists (map g (seq 0 (auto_max autos))). split; [now apply mapM_total|].
    split; [now rewrite map_length, seq_length|].
    intros i e E. rewrite nth_error_map in E.
    destruct (nth_error (seq 0 (auto_max autos)) i) as [i'|] eqn:S; [|discriminate].
    cbn [option_map] in E. injection E as <-.
    assert (Li : i < auto_max autos).
    { assert (K : nth_error (seq 0 (auto_max autos)) i <> None) by congruence.
      apply nth_error_Some in K. now rewrite seq_length in K. }
    assert (i' = i) as ->.
    { pose proof (nth_error_nth _ _ 0 S) as Q. rewrite seq_nth in Q by exact Li. cbn in Q. now symmetry. }
    apply H. apply in_seq. lia.
  Qed.
End Autos.

(** * Integers *)

(** An integer type of [w] bits. *)
Record ity := { it_signed : bool; it_bits : Z }.
Definition it_min (t : ity) : Z := if it_signed t then (- 2 ^ (it_bits t - 1))%Z else 0%Z.
Definition it_max (t : ity) : Z := if it_signed t then (2 ^ (it_bits t - 1) - 1)%Z else (2 ^ it_bits t - 1)%Z.
Definition in_type (t : ity) (z : Z) : Prop := (it_min t <= z <= it_max t)%Z.

(** Arithmetic of the type (core), panicking on overflow (as with overflow checks;
    without them it would wrap, which a proof that there is no panic excludes too). *)
Definition checked (t : ity) (z : Z) : outcome Z :=
  if (it_min t <=? z)%Z && (z <=? it_max t)%Z then Ret z else Panic.
Definition it_add t (a b : Z) := checked t (a + b).
Definition it_sub t (a b : Z) := checked t (a - b).
Definition it_div t (a b : Z) : outcome Z := if (b =? 0)%Z then Panic else checked t (Z.quot a b).

(** runtime/src/traits.rs:8-15, 21-28, 34-41, 48-58; [one] is 1 ([num_traits::One]). *)
Definition min_value_add_one t : outcome Z := it_add t (it_min t) 1.
Definition max_value_sub_one t : outcome Z := it_sub t (it_max t) 1.
Definition two t : outcome Z := it_add t 1 1.
Definition low t : outcome Z :=
  bind (two t) (fun tw => bind (it_div t (it_min t) tw) (fun a =>
  bind (two t) (fun tw => bind (it_div t (it_max t) tw) (fun b => it_add t a b)))).
Definition high t : outcome Z := bind (low t) (fun l => it_add t l 1).

(** runtime/src/lib.rs:94-118 [auto!] on an integer type, which has all the traits;
    the default is 0. *)
Definition auto_int t : outcome (list Z) :=
  bind (max_value_sub_one t) (fun m1 =>
  bind (low t) (fun l => bind (high t) (fun h =>
  bind (min_value_add_one t) (fun p1 =>
  Ret ([it_min t; it_max t] ++ [0%Z] ++ [m1] ++ [l; h] ++ [p1]))))).

Lemma pow2_split w : (3 <= w)%Z -> (2 ^ w = 2 * 2 ^ (w - 1) /\ 2 ^ (w - 1) = 2 * 2 ^ (w - 2) /\ 2 <= 2 ^ (w - 2))%Z.
Proof.
  intros H. rewrite <- !Z.pow_succ_r by lia. repeat split; try (f_equal; lia).
  change 2%Z with (2 ^ 1)%Z at 1. apply Z.pow_le_mono_r; lia.
Qed.

Lemma checked_ok t z : in_type t z -> checked t z = Ret z.
Proof.
  intros [A B]. unfold checked. apply Z.leb_le in A, B. now rewrite A, B.
Qed.

Lemma quot_odd a : (0 <= a)%Z -> Z.quot (2 * a + 1) 2 = a.
Proof. intros H. rewrite Z.quot_div_nonneg by lia. symmetry. apply (Z.div_unique_pos _ 2 a 1); lia. Qed.

Lemma quot_even_neg a : Z.quot (- (2 * a)) 2 = (- a)%Z.
Proof. replace (- (2 * a))%Z with (- a * 2)%Z by lia. apply Z.quot_mul. lia. Qed.

Lemma low_eq t : (3 <= it_bits t)%Z ->
  low t = Ret (if it_signed t then (-1)%Z else (2 ^ (it_bits t - 1) - 1)%Z).
Proof.
  intros H. destruct (pow2_split _ H) as (P1 & P2 & P3).
  assert (T : two t = Ret 2%Z).
  { unfold two, it_add. change (1 + 1)%Z with 2%Z. apply checked_ok.
    unfold in_type, it_min, it_max. destruct (it_signed t); lia. }
  unfold low. rewrite T. cbn [bind]. unfold it_div. change (2 =? 0)%Z with false. cbv iota.
  destruct t as [s w]. unfold it_min, it_max in *. cbn [it_signed it_bits] in *.
  set (q := (2 ^ (w - 2))%Z) in *. set (h := (2 ^ (w - 1))%Z) in *. set (f := (2 ^ w)%Z) in *.
  destruct s.
  - replace (- h)%Z with (- (2 * q))%Z by lia. rewrite quot_even_neg.
    rewrite checked_ok; [|unfold in_type, it_min, it_max; cbn [it_signed it_bits]; fold h; lia]. cbn [bind].
    replace (h - 1)%Z with (2 * (q - 1) + 1)%Z by lia. rewrite quot_odd by lia.
    rewrite checked_ok; [|unfold in_type, it_min, it_max; cbn [it_signed it_bits]; fold h; lia]. cbn [bind].
    unfold it_add. rewrite checked_ok; [f_equal; lia|unfold in_type, it_min, it_max; cbn [it_signed it_bits]; fold h; lia].
  - rewrite Z.quot_0_l by lia.
    rewrite checked_ok; [|unfold in_type, it_min, it_max; cbn [it_signed it_bits]; fold f; lia]. cbn [bind].
    replace (f - 1)%Z with (2 * (h - 1) + 1)%Z by lia. rewrite quot_odd by lia.
    rewrite checked_ok; [|unfold in_type, it_min, it_max; cbn [it_signed it_bits]; fold f; lia]. cbn [bind].
    unfold it_add. rewrite checked_ok; [f_equal; lia|unfold in_type, it_min, it_max; cbn [it_signed it_bits]; fold f; lia].
Qed.

Lemma high_eq t : (3 <= it_bits t)%Z ->
  high t = Ret (if it_signed t then 0%Z else (2 ^ (it_bits t - 1))%Z).
Proof.
  intros H. destruct (pow2_split _ H) as (P1 & P2 & P3). unfold high. rewrite low_eq by exact H. cbn [bind].
  unfold it_add. destruct t as [s w]. cbn [it_signed it_bits] in *.
  rewrite checked_ok; [f_equal; destruct s; lia|]. unfold in_type, it_min, it_max. cbn [it_signed it_bits].
  destruct s; lia.
Qed.
