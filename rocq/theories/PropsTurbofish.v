(** C25: inserting [::] before generic arguments. *)
From Coq Require Import List Ascii String Bool Arith Lia.
From Verif Require Import Base Syntax Turbofish.
Import ListNotations.
Local Open Scope nat_scope.

(** The result is the printed type with [::] inserted, each time immediately before an
    occurrence of an argument list that is not yet preceded by [::]. *)
Theorem C25_only_before_lists :
  (forall t, insertions (arg_lists t) (toks t) (type_as_turbofish t) /\ with_colons (toks t) (type_as_turbofish t)) /\
  (forall p : rpath, insertions (slists arg_lists toks (snd p)) (pathtoks toks (fst p) (snd p)) (path_as_turbofish p) /\
             with_colons (pathtoks toks (fst p) (snd p)) (path_as_turbofish p)).
Proof. split; intros; split; (apply scan_all_insertions || apply scan_all_with_colons). Qed.
Print Assumptions C25_only_before_lists.

(** Every occurrence of an argument list that is there when the list is visited is preceded
    by [::] in the end. *)
Theorem C25_every_occurrence :
  forall (before after : list (list tok)) (l ts a b : list tok),
    l <> [] -> scan_all before ts = a ++ l ++ b ->
    preceded a (l ++ b) (scan_all (before ++ l :: after) ts).
Proof.
  intros before after l ts a b N E. unfold scan_all. rewrite fold_left_app. fold (scan_all before ts). rewrite E. cbn [fold_left].
  apply scan_all_preceded. now apply scan_complete.
Qed.
Print Assumptions C25_every_occurrence.

(** Where every occurrence is preceded already, nothing changes. *)
Theorem C25_already_done :
  forall (ls : list (list tok)) (ts : list tok),
    (forall l a b, In l ls -> ts = a ++ l ++ b -> ends_in_colons a) -> scan_all ls ts = ts.
Proof.
  intros ls ts. induction ls as [|l ls IH]; intros H; [reflexivity|]. cbn [scan_all fold_left].
  replace (scan l None None ts) with ts.
  - apply IH. intros l' a b I. apply H. now right.
  - symmetry. apply (scan_done l ts []). intros a b E. apply (H l a b); [now left|exact E].
Qed.
Print Assumptions C25_already_done.

Lemma heads : forall t l, In l (arg_lists t) -> (exists r, l = tk "<" :: r) \/ (exists r, l = tk ":" :: r) \/ (exists d g r, l = Grp d g :: r).
Proof.
  induction t as [t IH] using rty_ind'. rewrite Forall_forall in IH.
  assert (A : forall a, (forall c, In c (achildren a) -> forall l, In l (arg_lists c) -> (exists r, l = tk "<" :: r) \/ (exists r, l = tk ":" :: r) \/ (exists d g r, l = Grp d g :: r)) ->
    forall l, In l (alists arg_lists toks a) -> (exists r, l = tk "<" :: r) \/ (exists r, l = tk ":" :: r) \/ (exists d g r, l = Grp d g :: r)).
  { intros [|c gs|ins out] H l I; cbn [alists] in I; [destruct I| |].
    - destruct I as [<-|I].
      + destruct c; cbn [atoks app colon2]; [right; left; eexists; reflexivity|left; eexists; reflexivity].
      + apply in_concat in I as (x & X & I). apply in_map_iff in X as (g & <- & X).
        destruct g; cbn [glists] in I; try (now destruct I); eapply H; try exact I; cbn [achildren]; apply in_concat; eexists; (split; [apply in_map_iff; eexists; split; [reflexivity|exact X]|now left]).
    - destruct I as [<-|I]; [right; right; cbn [atoks]; do 3 eexists; reflexivity|]. apply in_app_or in I as [I|I].
      + apply in_concat in I as (x & X & I). apply in_map_iff in X as (g & <- & X). eapply H; [|exact I]. cbn [achildren]. apply in_or_app. now left.
      + destruct out; [|destruct I]. eapply H; [|exact I]. cbn [achildren]. apply in_or_app. right. now left. }
  assert (S0 : forall s, (forall c, In c (schildren s) -> forall l, In l (arg_lists c) -> (exists r, l = tk "<" :: r) \/ (exists r, l = tk ":" :: r) \/ (exists d g r, l = Grp d g :: r)) ->
    forall l, In l (slists arg_lists toks s) -> (exists r, l = tk "<" :: r) \/ (exists r, l = tk ":" :: r) \/ (exists d g r, l = Grp d g :: r)).
  { intros s H l I. unfold slists in I. apply in_concat in I as (x & X & I). apply in_map_iff in X as ([n a] & <- & X). cbn [snd] in I.
    apply (A a); [|exact I]. intros c C. apply H. unfold schildren. apply in_concat. exists (achildren a). split; [|exact C]. apply in_map_iff. now exists (n, a). }
  destruct t; cbn [arg_lists children] in *; intros k I.
  - apply in_app_or in I as [I|I].
    + destruct qself as [[q n]|]; [|destruct I]. apply (IH q); [now left|exact I].
    + apply (S0 segs); [|exact I]. intros c C. apply IH. apply in_or_app. now right.
  - apply (IH t); [now left|exact I].
  - apply (IH t); [now left|exact I].
  - apply (IH t); [now left|exact I].
  - apply (IH t); [now left|exact I].
  - apply in_concat in I as (x & X & I). apply in_map_iff in X as (g & <- & X). now apply (IH g).
  - apply (IH t); [now left|exact I].
  - apply in_app_or in I as [I|I].
    + apply in_concat in I as (x & X & I). apply in_map_iff in X as (g & <- & X). apply (IH g); [apply in_or_app; now left|exact I].
    + destruct out; [|destruct I]. apply (IH r); [apply in_or_app; right; now left|exact I].
  - apply in_concat in I as (x & X & I). apply in_map_iff in X as ([b s] & <- & X). apply (S0 s); [|exact I]. intros c C. apply IH.
    apply in_concat. exists (schildren s). split; [|exact C]. apply in_map_iff. now exists (b, s).
  - destruct I.
Qed.

Lemma sep_snoc s l x : sep s (l ++ [x]) = match l with [] => x | _ => sep s l ++ s ++ x end.
Proof.
  induction l as [|a l IH]; [reflexivity|]. cbn [app]. destruct l as [|b l]; [reflexivity|].
  change ((b :: l) ++ [x]) with (b :: l ++ [x]) in *. cbn [sep] in *. rewrite IH. now rewrite <- !app_assoc.
Qed.

Lemma path_split lead segs name a :
  pathtoks toks lead (segs ++ [(name, a)]) = pathtoks toks lead (segs ++ [(name, ANone)]) ++ atoks toks a.
Proof.
  unfold pathtoks, stoks. rewrite !map_app. cbn [map fst snd]. rewrite !sep_snoc, <- app_assoc. f_equal.
  cbn [atoks]. destruct (map _ segs); [reflexivity|]. rewrite <- !app_assoc. reflexivity.
Qed.

Lemma no_lists segs : Forall (fun s => snd s = ANone) segs -> slists arg_lists toks segs = [].
Proof. induction 1 as [|[n a] segs E F IH]; [reflexivity|]. cbn [snd] in E. subst a. exact IH. Qed.

Lemma path_words lead segs name : Forall (fun s : seg => snd s = ANone) segs ->
  (forall s, In s (map fst segs ++ [name]) -> s <> lit "<") ->
  Forall (fun a => a <> tk "<" /\ forall d g, a <> Grp d g) (pathtoks toks lead (segs ++ [(name, ANone)])).
Proof.
  intros F N. unfold pathtoks. apply Forall_app. split; [destruct lead; repeat constructor; discriminate|].
  induction F as [|[n a] segs E F IH].
  - cbn. constructor; [|constructor]. split; [|discriminate]. intros H. injection H as H. apply (N name); [now left|exact H].
  - cbn [snd] in E. subst a. cbn [app stoks map fst snd atoks] in *. assert (H : n <> lit "<") by (apply N; now left).
    destruct (segs ++ [(name, ANone)]) as [|[n' a'] r] eqn:R; [destruct segs; discriminate|]. cbn [stoks map sep fst snd] in *.
    constructor; [split; [intros X; injection X as X; now apply H|discriminate]|]. constructor; [split; discriminate|]. constructor; [split; discriminate|].
    apply IH. intros s I. apply N. now right.
Qed.

(** A list beginning with [<] or a group is never found in such words. *)
Lemma scan_words l : (forall c r, l = c :: r -> c = tk "<" \/ exists d g, c = Grp d g) -> l <> [] ->
  forall a pre r, Forall (fun a => a <> tk "<" /\ forall d g, a <> Grp d g) a ->
    scan l (last2 None None pre) (last1 None pre) (a ++ r) = a ++ scan l (last2 None None (pre ++ a)) (last1 None (pre ++ a)) r.
Proof.
  intros H N. induction a as [|c a IH]; intros pre r F; [now rewrite app_nil_r|]. inversion F as [|? ? [F1 F2] F3]; subst. cbn [app scan].
  assert (S0 : starts l (c :: a ++ r) = false).
  { destruct l as [|x l]; [contradiction|]. cbn [starts]. destruct (tok_eqb x c) eqn:E; [|reflexivity]. apply tok_eqb_spec in E as ->.
    destruct (H c l eq_refl) as [->|(d & g & ->)]; [now destruct F1|now destruct (F2 d g)]. }
  rewrite S0. cbn [andb]. f_equal. specialize (IH (pre ++ [c]) r F3). destruct (last_snoc pre c) as [L1 L2]. rewrite L1, L2, <- app_assoc in IH. exact IH.
Qed.

Lemma scan_words0 l a r : (forall c r, l = c :: r -> c = tk "<" \/ exists d g, c = Grp d g) -> l <> [] ->
  Forall (fun a => a <> tk "<" /\ forall d g, a <> Grp d g) a ->
  scan l None None (a ++ r) = a ++ scan l (last2 None None a) (last1 None a) r.
Proof. intros H N F. exact (scan_words l H N a [] r F). Qed.

(** A self type such as [a::b::Foo<T>]: its arguments are preceded by [::] and inside them
    [::] is inserted only. *)
Theorem C25_self_type :
  forall (lead : bool) (segs : list seg) (name : str) (args : list (garg rty)),
    Forall (fun s => snd s = ANone) segs ->
    (forall s, In s (map fst segs ++ [name]) -> s <> lit "<" /\ s <> lit ":") ->
    let t := RPath None lead (segs ++ [(name, AAngle false args)]) in
    (forall l, In l (arg_lists t) -> hd_error l <> Some (tk ":")) ->
    exists r, type_as_turbofish t = toks (RPath None lead (segs ++ [(name, ANone)])) ++ colon2 ++ tk "<" :: r /\
      with_colons (atoks toks (AAngle false args)) (tk "<" :: r).
Proof.
  intros lead segs name args F N t H.
  set (pre := pathtoks toks lead (segs ++ [(name, ANone)])). set (L := atoks toks (AAngle false args)).
  assert (T : toks t = pre ++ L) by apply path_split.
  assert (A : exists ls, arg_lists t = L :: ls).
  { unfold t. cbn [arg_lists app]. unfold slists. rewrite map_app, concat_app. fold (slists arg_lists toks segs). rewrite no_lists by exact F.
    cbn [app map List.concat snd alists]. eexists. reflexivity. }
  destruct A as [ls A]. unfold type_as_turbofish. rewrite A, T. cbn [scan_all fold_left]. fold (scan_all ls (scan L None None (pre ++ L))).
  pose proof (path_words lead segs name F (fun s I => proj1 (N s I))) as W. fold pre in W.
  assert (HD : exists L', L = tk "<" :: L') by (unfold L; cbn [atoks app]; eauto). destruct HD as [L' HD].
  assert (E1 : exists r, scan L None None (pre ++ L) = pre ++ colon2 ++ tk "<" :: r /\ with_colons L (tk "<" :: r)).
  { rewrite HD. rewrite (scan_words0 (tk "<" :: L') pre (tk "<" :: L') ltac:(intros c r E; injection E as <- _; now left) ltac:(discriminate) W).
    cbn [app]. cbn [scan]. rewrite (proj2 (starts_spec (tk "<" :: L') (tk "<" :: L'))) by (exists []; now rewrite app_nil_r). cbn [andb].
    destruct (is_colon (last2 None None pre) && is_colon (last1 None pre)) eqn:C; cbn [negb].
    - exfalso. apply ends_spec in C. destruct C as [x C].
      assert (Z : last1 None pre = Some (Tk name)).
      { unfold pre, pathtoks, stoks. rewrite map_app. cbn [map fst snd atoks]. rewrite sep_snoc. unfold last1.
        destruct (map (fun s : str * pargs rty => Tk (fst s) :: atoks toks (snd s)) segs); rewrite !rev_app_distr; reflexivity. }
      rewrite C in Z. unfold last1 in Z. rewrite rev_app_distr in Z. cbn in Z. injection Z as Z.
      apply (proj2 (N name ltac:(apply in_or_app; right; now left))). symmetry. exact Z.
    - eexists. split; [reflexivity|]. constructor. apply scan_with_colons. }
  destruct E1 as (r0 & E1 & W1). rewrite E1.
  assert (HL : forall l, In l ls -> (exists x, l = tk "<" :: x) \/ exists d g x, l = Grp d g :: x).
  { intros l I. destruct (heads t l) as [X|[[x ->]|X]]; [rewrite A; now right|now left| |now right].
    exfalso. apply (H (tk ":" :: x)); [rewrite A; now right|reflexivity]. }
  assert (G : forall r0, with_colons L (tk "<" :: r0) -> exists r, scan_all ls (pre ++ colon2 ++ tk "<" :: r0) = pre ++ colon2 ++ tk "<" :: r /\ with_colons L (tk "<" :: r)).
  { clear E1 W1 r0 A H. revert HL. induction ls as [|l ls IH]; intros HL r0 W1; [exists r0; split; [reflexivity|exact W1]|]. cbn [scan_all fold_left].
    assert (S1 : exists r1, scan l None None (pre ++ colon2 ++ tk "<" :: r0) = pre ++ colon2 ++ tk "<" :: r1 /\ with_colons L (tk "<" :: r1)).
    { assert (W2 : Forall (fun a => a <> tk "<" /\ forall d g, a <> Grp d g) (pre ++ colon2)) by (apply Forall_app; split; [exact W|repeat constructor; discriminate]).
      assert (Hl := HL l (or_introl eq_refl)).
      rewrite app_assoc. rewrite (scan_words0 l (pre ++ colon2) (tk "<" :: r0) ltac:(intros c x ->; destruct Hl as [[y E]|(d & g & y & E)]; injection E as -> _; eauto) ltac:(destruct Hl as [[y ->]|(d & g & y & ->)]; discriminate) W2).
      assert (C : ends_in_colons (pre ++ colon2)) by now exists pre. apply ends_spec in C.
      cbn [scan]. rewrite C, andb_false_r. rewrite <- app_assoc. eexists. split; [reflexivity|].
      eapply with_colons_trans; [|exact W1]. constructor. apply scan_with_colons. }
    destruct S1 as (r1 & -> & W3). destruct (IH (fun l I => HL l (or_intror I)) r1 W3) as (r & E & W4). exists r. split; [exact E|exact W4]. }
  destruct (G r0 W1) as (r & E & W2). exists r. split; [exact E|exact W2].
Qed.
Print Assumptions C25_self_type.

(** A type without argument lists is printed as it is. *)
Theorem C25_no_arguments : forall t, arg_lists t = [] -> type_as_turbofish t = toks t.
Proof. intros t E. unfold type_as_turbofish. now rewrite E. Qed.
Print Assumptions C25_no_arguments.

(** Not every list gets its [::]: in [A<u8>::B<C<u8>>] the list of [B] changes when [<u8>] is
    visited, and is not found any more. *)
Theorem C25_changed_list_refuted :
  exists t : rty, (forall l, In l (arg_lists t) -> hd_error l <> Some (tk ":")) /\
    type_as_turbofish t =
      [tk "A"; tk ":"; tk ":"; tk "<"; tk "u8"; tk ">"; tk ":"; tk ":"; tk "B"; tk "<"; tk "C"; tk ":"; tk ":"; tk "<"; tk "u8"; tk ">"; tk ">"].
Proof.
  exists (RPath None false [(lit "A", AAngle false [GType (rname "u8")]); (lit "B", AAngle false [GType (rapp "C" [rname "u8"])])]).
  split; [|vm_compute; reflexivity]. intros l I. vm_compute in I. repeat (destruct I as [<-|I]; [discriminate|]). destruct I.
Qed.
Print Assumptions C25_changed_list_refuted.

(** An argument list written with [::] gets a second one. *)
Theorem C25_second_colons_refuted :
  exists t : rty, toks t = [tk "Foo"; tk ":"; tk ":"; tk "<"; tk "T"; tk ">"] /\
    type_as_turbofish t = [tk "Foo"; tk ":"; tk ":"; tk ":"; tk ":"; tk "<"; tk "T"; tk ">"].
Proof. exists (RPath None false [(lit "Foo", AAngle true [GType (rname "T")])]). vm_compute. split; reflexivity. Qed.
Print Assumptions C25_second_colons_refuted.

(** [::] is inserted where there is no argument list: in [<T>::Foo<T>] also before the
    qualified self type. *)
Theorem C25_not_a_list_refuted :
  exists t : rty, toks t = [tk "<"; tk "T"; tk ">"; tk ":"; tk ":"; tk "Foo"; tk "<"; tk "T"; tk ">"] /\
    type_as_turbofish t = [tk ":"; tk ":"; tk "<"; tk "T"; tk ">"; tk ":"; tk ":"; tk "Foo"; tk ":"; tk ":"; tk "<"; tk "T"; tk ">"].
Proof. exists (RPath (Some (rname "T", 0)) false [(lit "Foo", AAngle false [GType (rname "T")])]). vm_compute. split; reflexivity. Qed.
Print Assumptions C25_not_a_list_refuted.

Example C25_example :
  type_as_turbofish (RPath None true [(lit "std", ANone); (lit "HashMap", AAngle false [GType (rname "K"); GType (rapp "Vec" [rapp "Vec" [rname "V"]])])]) =
    colon2 ++ [tk "std"] ++ colon2 ++ [tk "HashMap"] ++ colon2 ++ [tk "<"; tk "K"; tk ","; tk "Vec"] ++ colon2 ++ [tk "<"; tk "Vec"] ++ colon2 ++
      [tk "<"; tk "V"; tk ">"; tk ">"; tk ">"].
Proof. vm_compute. reflexivity. Qed.
