(** C93: the serialisation format. *)
From Coq Require Import List Ascii String Bool Arith NArith Lia.
From Verif Require Import Base Serde Postcard Bincode PropsSerde Format.
Import ListNotations.
Local Open Scope nat_scope.

(** Every selection of features compiles, and what it writes it can read: what is recorded by
    a build decodes, in a build with the same features, to what was recorded, whether or not
    formats are given and even if both are.  Strings of more than 2048 bytes and values of
    more than a gibibyte are the exceptions (C17, C18). *)
Theorem C93_same_format :
  forall (z : bool) (f : features),
    exists s d, serialize_with z false f = Some s /\ deserialize_with z false f = Some d /\
      forall (env : nat -> ty) (t : ty) (v : val) (rest : bytes),
        wt env t v -> Forall short (strings v) -> (claimed v <= 2 ^ 30)%N ->
        exists fuel, forall g, fuel <= g -> d env g t (s v ++ rest) = Value v.
Proof.
  intros z f.
  assert (B : forall (env : nat -> ty) (t : ty) (v : val) (rest : bytes), wt env t v -> Forall short (strings v) -> (claimed v <= 2 ^ 30)%N ->
              exists fuel, forall g, fuel <= g -> Bincode.deserialize env g t (Bincode.serialize v ++ rest) = Value v).
  { intros env t v rest W _ C. destruct (C18_round_trip env t v rest W) as (k & K). exists k. intros g G. rewrite (K g G).
    apply N.leb_le in C. now rewrite C. }
  assert (P : forall (env : nat -> ty) (t : ty) (v : val) (rest : bytes), wt env t v -> Forall short (strings v) -> (claimed v <= 2 ^ 30)%N ->
              exists fuel, forall g, fuel <= g -> Postcard.deserialize z false env g t (Postcard.serialize z false v ++ rest) = Value v).
  { intros env t v rest W S _. now apply C14_round_trip. }
  destruct f as [[|] [|]]; cbn; (eexists; eexists; (split; [reflexivity|]); (split; [reflexivity|])); assumption.
Qed.
Print Assumptions C93_same_format.

(** Which format it is: bincode exactly if its feature is enabled, otherwise postcard. *)
Theorem C93_which_format :
  forall (z k : bool) (f : features),
    (ft_bincode f = true -> serialize_with z k f = Some Bincode.serialize /\ deserialize_with z k f = Some Bincode.deserialize) /\
    (ft_bincode f = false -> serialize_with z k f = Some (Postcard.serialize z k) /\ deserialize_with z k f = Some (Postcard.deserialize z k)).
Proof. intros z k [[|] [|]]; cbn; split; intros E; try discriminate; auto. Qed.
Print Assumptions C93_which_format.

(** [as_feature] names the feature of the format, if at most one is enabled, and panics
    otherwise; a build with the feature it names, and no other, uses the same format. *)
Theorem C93_as_feature :
  forall (f : features),
    (as_feature f = Panic <-> ft_bincode f = true /\ ft_postcard f = true) /\
    (forall n, as_feature f = Ret n ->
       (n = lit "serde_bincode" <-> ft_bincode f = true) /\ (n = lit "serde_postcard" <-> ft_bincode f = false) /\
       forall z k, let f' := enable n {| ft_bincode := false; ft_postcard := false |} in
         serialize_with z k f' = serialize_with z k f /\ deserialize_with z k f' = deserialize_with z k f).
Proof.
  intros [[|] [|]].
  - split; [split; auto|]. discriminate.
  - split; [split; [discriminate|intros [_ E]; discriminate]|]. intros n E. assert (n = lit "serde_bincode") by (now inversion E). subst n.
    split; [tauto|]. split; [split; discriminate|]. auto.
  - split; [split; [discriminate|intros [E _]; discriminate]|]. intros n E. assert (n = lit "serde_postcard") by (now inversion E). subst n.
    split; [split; discriminate|]. split; [tauto|]. auto.
  - split; [split; [discriminate|intros [E _]; discriminate]|]. intros n E. assert (n = lit "serde_postcard") by (now inversion E). subst n.
    split; [split; discriminate|]. split; [tauto|]. auto.
Qed.
Print Assumptions C93_as_feature.

(** Features added by another crate of the build can change the format; data recorded before
    is then decoded silently to other arguments. *)
Theorem C93_mixed_formats_refuted :
  exists (f f' : features) s d (t : ty) (v v' : val),
    serialize_with false false f = Some s /\ deserialize_with false false f' = Some d /\ f' = enable (lit "serde_bincode") f /\
    wt (fun _ => TUnit) t v /\ v <> v' /\ forall g, d (fun _ => TUnit) (S g) t (s v) = Value v'.
Proof.
  exists {| ft_bincode := false; ft_postcard := true |}, {| ft_bincode := true; ft_postcard := true |}.
  eexists. eexists. exists (TUInt W16), (VUInt W16 300), (VUInt W16 172).
  split; [reflexivity|]. split; [reflexivity|]. split; [reflexivity|]. split; [constructor; reflexivity|]. split; [congruence|].
  intros g. reflexivity.
Qed.
Print Assumptions C93_mixed_formats_refuted.

Example C93_example :
  as_feature {| ft_bincode := false; ft_postcard := false |} = Ret (lit "serde_postcard") /\
  as_feature {| ft_bincode := true; ft_postcard := false |} = Ret (lit "serde_bincode") /\
  as_feature {| ft_bincode := true; ft_postcard := true |} = Panic /\
  (exists s, serialize_with false false {| ft_bincode := true; ft_postcard := true |} = Some s /\ s (VUInt W32 1000) = Bincode.serialize (VUInt W32 1000)).
Proof. split; [reflexivity|]. split; [reflexivity|]. split; [reflexivity|]. eexists. split; reflexivity. Qed.
