(** Theorems about the repository's tests of its own texts (C124, C125). *)
From Coq Require Import List Ascii String Bool Arith NArith Lia Sorted.
From Verif Require Import Base Utf8 Semver GenericTest InstallTest Release Ci.
Import ListNotations.
Local Open Scope nat_scope.

(** The order of texts, by their bytes. *)
Definition text_le (a b : str) : Prop := a = b \/ ascii_lt a b.

Lemma text_le_cmp a b : (match str_cmp a b with Gt => false | _ => true end) = true <-> text_le a b.
Proof.
  pose proof (str_cmp_spec a b) as C. unfold text_le. destruct (str_cmp a b); split; auto; try discriminate.
  intros [->|H]; exfalso; [exact (ascii_lt_irrefl _ C)|exact (ascii_lt_irrefl _ (ascii_lt_trans _ _ _ C H))].
Qed.
Lemma text_le_trans a b c : text_le a b -> text_le b c -> text_le a c.
Proof. intros [->|H] [->|K]; unfold text_le; auto. right. eapply ascii_lt_trans; eauto. Qed.

Lemma is_sorted_spec l : is_sorted l = true <-> Sorted text_le l.
Proof.
  induction l as [|x l IH]; [split; constructor|]. destruct l as [|y l]; [split; repeat constructor|].
  change (is_sorted (x :: y :: l)) with (match str_cmp x y with Gt => false | _ => is_sorted (y :: l) end).
  pose proof (text_le_cmp x y) as C. split.
  - intros H. constructor; [apply IH; now destruct (str_cmp x y)|]. constructor. apply C. now destruct (str_cmp x y).
  - intros H. apply Sorted_inv in H as [S Hd]. apply HdRel_inv in Hd. apply C in Hd. apply IH in S. now destruct (str_cmp x y).
Qed.

(** C124: the ranges into which a table is divided cut its text where a line begins after blank
    lines, and nowhere else. *)
Theorem C124_groups :
  forall (doc : str) (lo hi : nat), lo <= hi <= List.length doc ->
    cut_at_blanks (firstn (hi - lo) (skipn lo doc)) (map (fun g => firstn (snd g - fst g) (skipn (fst g) doc)) (groups doc lo hi)) /\
    groups doc lo hi <> [].
Proof. intros doc lo hi L. split; [exact (groups_cut doc lo hi L)|]. unfold groups. now destruct (group_starts doc lo hi). Qed.
Print Assumptions C124_groups.

Lemma cut_longer p ps q qs : p :: ps <> q :: qs -> List.length p < List.length q ->
  cut_at_blanks (List.concat (q :: qs)) (p :: ps) -> cut_at_blanks (List.concat (q :: qs)) (q :: qs) -> False.
Proof.
  intros _ L (E & A & _) (_ & _ & W). cbn [List.concat] in E.
  destruct ps as [|p2 ps].
  - cbn [List.concat] in E. apply (f_equal (@List.length _)) in E. rewrite !app_length in E. cbn in E. lia.
  - destruct (A 0 p p2 eq_refl eq_refl) as ((t & ->) & c & r & -> & N0). cbn [List.concat app] in E.
    assert (X : exists u, q = (t ++ [LF; LF]) ++ c :: u).
    { revert E L. generalize (t ++ [LF; LF]). intros x. revert q W. induction x as [|d x IH]; intros q W E L.
      - destruct q as [|d q]; [cbn in L; lia|]. cbn [app] in *. injection E as -> _. now exists q.
      - destruct q as [|d' q]; [cbn in L; lia|]. cbn [app] in *. injection E as <- E. destruct (IH q) as (u & ->); auto.
        + intros p a c0 b [<-|I] N1; [|apply W; [now right|exact N1]]. intros K. apply (W (d :: q) (d :: a) c0 b); [now left|exact N1|]. now rewrite K.
        + cbn in L. lia.
        + now exists u. }
    destruct X as (u & ->). apply (W ((t ++ [LF; LF]) ++ c :: u) t c u); [now left|exact N0|]. now rewrite <- app_assoc.
Qed.

(** C124: there is one such division, so "the groups" of a table are determined. *)
Theorem C124_unique :
  forall (s : str) (ps qs : list str), ps <> [] -> qs <> [] -> cut_at_blanks s ps -> cut_at_blanks s qs -> ps = qs.
Proof.
  intros s ps. revert s. induction ps as [|p ps IH]; intros s qs Np Nq Hp Hq; [now destruct Np|]. destruct qs as [|q qs]; [now destruct Nq|].
  assert (E : s = List.concat (q :: qs)) by (symmetry; apply Hq). subst s.
  assert (E : List.concat (p :: ps) = List.concat (q :: qs)) by apply Hp.
  destruct (list_eq_dec (list_eq_dec ascii_dec) (p :: ps) (q :: qs)) as [K|K]; [exact K|exfalso].
  destruct (lt_eq_lt_dec (List.length p) (List.length q)) as [[L|L]|L].
  - exact (cut_longer p ps q qs K L Hp Hq).
  - cbn [List.concat] in E.
    assert (X : p = q /\ List.concat ps = List.concat qs).
    { clear -E L. revert q L E. induction p as [|c p IH]; intros [|d q] L E; try discriminate L; [auto|]. cbn [app] in E. injection E as -> E. injection L as L.
      destruct (IH q L E) as [-> ?]. auto. }
    destruct X as [-> X]. apply K. f_equal.
    assert (T : forall l, cut_at_blanks (List.concat (q :: qs)) (q :: l) -> cut_at_blanks (List.concat l) l).
    { intros l (_ & A & W). split; [reflexivity|]. split.
      - intros i x y Hx Hy. exact (A (S i) x y Hx Hy).
      - intros x a c b I. apply W. now right. }
    destruct ps as [|p2 ps], qs as [|q2 qs]; [reflexivity| | |].
    + exfalso. destruct Hq as (_ & A & _). destruct (A 0 q q2 eq_refl eq_refl) as (_ & c & r & -> & _). discriminate X.
    + exfalso. destruct Hp as (_ & A & _). destruct (A 0 q p2 eq_refl eq_refl) as (_ & c & r & -> & _). discriminate X.
    + apply (IH (List.concat (p2 :: ps))); try discriminate; [now apply (T (p2 :: ps))|]. rewrite X. now apply (T (q2 :: qs)).
  - apply (cut_longer q qs p ps (not_eq_sym K) L); [|]; rewrite E; auto.
Qed.
Print Assumptions C124_unique.

Lemma all_sorted_map keys doc gs :
  all_sorted keys doc gs = (fix go ps := match ps with [] => Ret true | p :: ps' => match keys p with None => Panic | Some ks => if is_sorted ks then go ps' else Ret false end end)
                           (map (piece doc) gs).
Proof. induction gs as [|[a b] gs IH]; [reflexivity|]. cbn [all_sorted map]. unfold piece at 1. cbn [fst snd]. rewrite IH. reflexivity. Qed.

(** C124: so the test of a table succeeds exactly if the keys of each group are in order.  It
    panics exactly if a group is no document, and those before it are in order. *)
Theorem C124_sorted :
  forall (keys : str -> option (list str)) (doc : str) (lo hi : nat) (ps : list str),
    lo <= hi <= List.length doc -> ps <> [] -> cut_at_blanks (firstn (hi - lo) (skipn lo doc)) ps ->
    let in_order p := exists ks, keys p = Some ks /\ Sorted text_le ks in
    (pairs_are_sorted keys doc lo hi = Ret true <-> Forall in_order ps) /\
    (pairs_are_sorted keys doc lo hi = Panic <-> exists before p after, ps = before ++ p :: after /\ Forall in_order before /\ keys p = None) /\
    (forall e, pairs_are_sorted keys doc lo hi <> Err e).
Proof.
  intros keys doc lo hi ps L Np Hp in_order. destruct (C124_groups doc lo hi L) as [Hg Ng].
  assert (E : map (piece doc) (groups doc lo hi) = ps).
  { apply (C124_unique (firstn (hi - lo) (skipn lo doc))); auto. destruct (groups doc lo hi); [now destruct Ng|discriminate]. }
  unfold pairs_are_sorted. rewrite all_sorted_map, E. clear -keys in_order.
  assert (B : forall p, match keys p with None => ~ in_order p | Some ks => is_sorted ks = true <-> in_order p end).
  { intros p. unfold in_order. destruct (keys p) as [ks|] eqn:K.
    - rewrite is_sorted_spec. split; [eauto|]. intros (ks' & Q & S). now injection Q as <-.
    - intros (ks' & Q & _). discriminate Q. }
  induction ps as [|p ps (IH1 & IH2 & IH3)].
  - split; [split; constructor|]. split; [|discriminate]. split; [discriminate|]. intros ([|] & p & a & K & _); discriminate K.
  - specialize (B p). destruct (keys p) as [ks|] eqn:K.
    + destruct (is_sorted ks) eqn:S.
      * assert (I : in_order p) by now apply B. split; [|split; [|exact IH3]].
        -- rewrite IH1. split; [now constructor|]. intros F. now inversion F.
        -- rewrite IH2. split.
           ++ intros (b & q & a & -> & F & Kq). exists (p :: b), q, a. auto.
           ++ intros (b & q & a & E & F & Kq). destruct b as [|x b]; cbn [app] in E; injection E as <- E; [congruence|]. inversion F. exists b, q, a. auto.
      * assert (I : ~ in_order p) by (intros I; apply B in I; congruence). split; [|split; [|discriminate]].
        -- split; [discriminate|]. intros F. inversion F. contradiction.
        -- split; [discriminate|]. intros (b & q & a & E & F & Kq). destruct b as [|x b]; cbn [app] in E; injection E as <- E; [congruence|]. inversion F. contradiction.
    + split; [|split; [|discriminate]].
      * split; [discriminate|]. intros F. inversion F. contradiction.
      * split; [|reflexivity]. intros _. exists [], p, ps. auto.
Qed.
Print Assumptions C124_sorted.

(** C124: in a file in which every line feed follows a carriage return, no line is seen to be
    blank: the whole table is one group. *)
Theorem C124_crlf :
  forall (doc : str) (lo hi : nat), lo <= hi <= List.length doc ->
    (forall i, nth_error doc (S i) = Some LF -> nth_error doc i = Some CR) ->
    groups doc lo hi = [(lo, hi)].
Proof.
  intros doc lo hi L H. unfold groups. destruct (group_starts doc lo hi) as [|j l] eqn:E; [reflexivity|exfalso].
  assert (I : In j (group_starts doc lo hi)) by (rewrite E; now left). apply group_starts_spec in I as ((Lj & H1 & H2 & _) & _); [|exact L].
  replace (j - 1) with (S (j - 2)) in H2 by lia. apply H in H2. rewrite H1 in H2. discriminate H2.
Qed.
Print Assumptions C124_crlf.

(** C124: so the verdict on a table may depend on the line ends of its file. *)
Theorem C124_crlf_refuted :
  exists (keys : str -> option (list str)) (ls : list str),
    let lf := List.concat (map (fun l => l ++ [LF]) ls) in
    let crlf := List.concat (map (fun l => l ++ [CR; LF]) ls) in
    lines lf = lines crlf /\ (forall s t, lines s = lines t -> keys s = keys t) /\
    pairs_are_sorted keys lf 0 (List.length lf) = Ret true /\ pairs_are_sorted keys crlf 0 (List.length crlf) = Ret false.
Proof.
  exists (fun s => Some (filter (fun l => negb (str_eqb l [])) (lines s))), [lit "serde"; []; lit "anyhow"].
  split; [vm_compute; reflexivity|]. split; [intros s t ->; reflexivity|]. split; vm_compute; reflexivity.
Qed.
Print Assumptions C124_crlf_refuted.

(** C124: what is compared of the report on suppliers is everything but what is at a key
    [avatar]. *)
Theorem C124_avatars :
  forall (v : json) (p : list step),
    (In (Key (lit "avatar")) p -> at_path (remove_avatars v) p = None) /\
    (~ In (Key (lit "avatar")) p -> at_path (remove_avatars v) p = option_map remove_avatars (at_path v p)).
Proof.
  intros v p. revert v. induction p as [|x p IH]; intros v; [split; [intros []|reflexivity]|].
  assert (Sk : forall w, at_path (JLeaf w) (x :: p) = None) by (intros w; now destruct x).
  destruct v as [t|l|l].
  - cbn [remove_avatars]. rewrite Sk. auto.
  - destruct x as [i|k]; [|cbn; auto]. cbn [remove_avatars at_path]. rewrite nth_error_map. destruct (nth_error l i) as [w|]; cbn [option_map]; [|auto].
    destruct (IH w) as [A B]. split.
    + intros [K|K]; [discriminate K|auto].
    + intros K. apply B. intros I. apply K. now right.
  - rewrite remove_obj. destruct x as [i|k]; [cbn; auto|]. cbn [at_path]. rewrite lookup_retain. destruct (str_eqb k (lit "avatar")) eqn:E.
    + apply str_eqb_eq in E. subst k. split; [reflexivity|]. intros K. destruct K. now left.
    + apply str_eqb_neq in E. destruct (lookup k l) as [w|]; cbn [option_map]; [|auto]. destruct (IH w) as [A B]. split.
      * intros [K|K]; [injection K as K; contradiction|auto].
      * intros K. apply B. intros I. apply K. now right.
Qed.
Print Assumptions C124_avatars.

Lemma filter_twice {A} (f : A -> bool) l : filter f (filter f l) = filter f l.
Proof. induction l as [|x l IH]; [reflexivity|]. cbn [filter]. destruct (f x) eqn:E; cbn [filter]; rewrite ?E, IH; reflexivity. Qed.
Lemma retain_keys l : map fst (retain l) = filter (fun k => negb (str_eqb k (lit "avatar"))) (map fst l).
Proof. unfold retain. induction l as [|[k v] l IH]; [reflexivity|]. cbn [filter map fst]. destruct (negb (str_eqb k (lit "avatar"))); cbn [map fst]; now rewrite ?IH. Qed.
Lemma look_removed v : look (remove_avatars v) = look v.
Proof. destruct v as [t|l|l]; [reflexivity|cbn; now rewrite map_length|]. rewrite remove_obj. cbn [look]. now rewrite retain_keys, filter_twice. Qed.

Definition got (k : str) (l : list (str * json)) : str * json := (k, match lookup k l with Some v => remove_avatars v | None => JLeaf [] end).
Lemma lookup_tail k k' v l : k' <> k -> lookup k ((k', v) :: l) = lookup k l.
Proof. intros N0. cbn [lookup]. apply str_eqb_neq in N0. now rewrite N0. Qed.
Lemma retain_got l : NoDup (map fst l) -> retain l = map (fun k => got k l) (filter (fun k => negb (str_eqb k (lit "avatar"))) (map fst l)).
Proof.
  induction l as [|[k v] l IH]; intros N0; [reflexivity|]. cbn [map fst] in N0. apply NoDup_cons_iff in N0 as [N1 N0]. specialize (IH N0).
  assert (T : map (fun k0 => got k0 ((k, v) :: l)) (filter (fun k => negb (str_eqb k (lit "avatar"))) (map fst l)) = retain l).
  { rewrite IH. apply map_ext_in. intros k0 I. apply filter_In in I as [I _]. unfold got. rewrite lookup_tail; [reflexivity|]. intros ->. contradiction. }
  unfold retain in *. cbn [filter map fst snd]. destruct (negb (str_eqb k (lit "avatar"))); cbn [map fst snd]; [|now rewrite T].
  f_equal; [|now rewrite T]. unfold got. cbn [lookup]. now rewrite str_eqb_refl.
Qed.
Lemma lookup_in k l : In k (map fst l) -> exists v, lookup k l = Some v /\ In (k, v) l.
Proof.
  induction l as [|[k' v] l IH]; [intros []|]. cbn [map fst In lookup]. destruct (str_eqb k' k) eqn:E.
  - apply str_eqb_eq in E. subst k'. intros _. exists v. auto.
  - apply str_eqb_neq in E. intros [K|K]; [contradiction|]. destruct (IH K) as (w & H & I). eauto.
Qed.

(** C124: two reports are the same to the test exactly if, along every path without the key
    [avatar], they have the same leaf, as many items, or the same other keys. *)
Theorem C124_compare :
  forall (v w : json), distinct_keys v -> distinct_keys w ->
    (remove_avatars v = remove_avatars w <->
     forall p, ~ In (Key (lit "avatar")) p -> option_map look (at_path v p) = option_map look (at_path w p)).
Proof.
  intros v w Dv Dw. split.
  - intros E p N0. destruct (C124_avatars v p) as [_ Av]. destruct (C124_avatars w p) as [_ Aw]. specialize (Av N0). specialize (Aw N0). rewrite E, Aw in Av.
    destruct (at_path v p) as [x|], (at_path w p) as [y|]; cbn [option_map] in *; try discriminate Av; [|reflexivity]. injection Av as Av.
    rewrite <- (look_removed x), <- Av, look_removed. reflexivity.
  - revert w Dw. induction v as [t|l IH|l IH] using json_ind'; intros w Dw H; pose proof (H [] (fun K => K)) as H0; cbn [at_path option_map look] in H0.
    + destruct w; try discriminate H0. injection H0 as ->. reflexivity.
    + destruct w as [t|l'|l']; try discriminate H0. injection H0 as H0. cbn [remove_avatars]. f_equal.
      inversion Dv as [|? Fl|]; subst. inversion Dw as [|? Fl'|]; subst. rewrite Forall_forall in IH, Fl, Fl'.
      assert (Hi : forall i x y, nth_error l i = Some x -> nth_error l' i = Some y -> remove_avatars x = remove_avatars y).
      { intros i x y Hx Hy. apply IH; [now apply nth_error_In in Hx|apply Fl; now apply nth_error_In in Hx|apply Fl'; now apply nth_error_In in Hy|].
        intros p N0. specialize (H (Item i :: p)). cbn [at_path] in H. rewrite Hx, Hy in H. apply H. intros [K|K]; [discriminate K|contradiction]. }
      clear -H0 Hi. revert l' H0 Hi. induction l as [|x l IHl]; intros [|y l'] L Hi; try discriminate L; [reflexivity|]. cbn [map]. f_equal; [now apply (Hi 0)|].
      apply IHl; [now injection L|]. intros i. apply (Hi (S i)).
    + destruct w as [t|l'|l']; try discriminate H0. 
      assert (H1 : filter (fun k => negb (str_eqb k (lit "avatar"))) (map fst l) = filter (fun k => negb (str_eqb k (lit "avatar"))) (map fst l')) by (now injection H0).
      clear H0. rename H1 into H0. rewrite !remove_obj. f_equal.
      inversion Dv as [| |? Nl Fl]; subst. inversion Dw as [| |? Nl' Fl']; subst. rewrite Forall_forall in IH, Fl, Fl'.
      rewrite (retain_got l Nl), (retain_got l' Nl'), <- H0. apply map_ext_in. intros k I.
      assert (I' : In k (map fst l')) by (rewrite H0 in I; now apply filter_In in I as [I _]). apply filter_In in I as [I Na].
      apply negb_true_iff, str_eqb_neq in Na. destruct (lookup_in k l I) as (x & Hx & Ix). destruct (lookup_in k l' I') as (y & Hy & Iy).
      unfold got. rewrite Hx, Hy. f_equal. apply (IH (k, x) Ix); [exact (Fl _ Ix)|exact (Fl' _ Iy)|].
      intros p N0. specialize (H (Key k :: p)). cbn [at_path] in H. rewrite Hx, Hy in H. apply H. intros [K|K]; [injection K as K; contradiction|contradiction].
Qed.
Print Assumptions C124_compare.

(** C124: without BLESS, or if that is 0, the test of the supply chain succeeds exactly if the stored
    text is the output, and never changes it; otherwise it stores the output, so that it succeeds
    from then on, as long as the output is the same. *)
Theorem C124_bless :
  forall (value stored : option str) (out : str),
    ((value = None \/ value = Some (lit "0")) ->
       (supply_chain value stored out = Ret out <-> stored = Some out) /\ (supply_chain value stored out = Panic <-> stored <> Some out)) /\
    (forall v, value = Some v -> v <> lit "0" -> supply_chain value stored out = Ret out /\ supply_chain None (Some out) out = Ret out).
Proof.
  intros value stored out. split.
  - intros V. assert (B : bless value = false) by (destruct V as [-> | ->]; reflexivity). unfold supply_chain. rewrite B. destruct stored as [s|]; [|split; split; (discriminate || reflexivity)].
    destruct (str_eqb s out) eqn:E.
    + apply str_eqb_eq in E. subst s. split; split; (reflexivity || discriminate || congruence).
    + apply str_eqb_neq in E. split; split; (discriminate || reflexivity || (intros; congruence)).
  - intros v -> N. unfold supply_chain, bless. apply str_eqb_neq in N. rewrite N, str_eqb_refl. split; reflexivity.
Qed.
Print Assumptions C124_bless.

Example C124_example :
  let nl := [LF] in
  let doc := lit "[dependencies]" ++ nl ++ lit "b = 1" ++ nl ++ lit "c = 1" ++ nl ++ nl ++ nl ++ lit "# own" ++ nl ++ lit "a = 1" ++ nl ++ nl ++ lit "[features]" in
  map (fun g => firstn (snd g - fst g) (skipn (fst g) doc)) (groups doc 14 40) =
  [nl ++ lit "b = 1" ++ nl ++ lit "c = 1" ++ nl ++ nl ++ nl; lit "# own" ++ nl ++ lit "a = 1"] /\
  pairs_are_sorted (fun s => Some (filter (fun l => negb (starts_with (lit "#") l) && negb (str_eqb l [])) (lines s))) doc 14 40 = Ret true /\
  remove_avatars (JObj [(lit "avatar", JLeaf (lit "x")); (lit "crates", JArr [JObj [(lit "avatar", JLeaf (lit "null")); (lit "id", JLeaf (lit "1"))]])]) =
  JObj [(lit "crates", JArr [JObj [(lit "id", JLeaf (lit "1"))]])].
Proof. vm_compute. repeat split. Qed.

(** ** The readme and the licenses *)

Lemma closing_spec s b r : closing s = Some (b, r) <-> s = b ++ "]"%char :: r /\ ~ In "]"%char b.
Proof.
  revert b r. induction s as [|c s IH]; intros b r; cbn [closing].
  - split; [discriminate|]. intros [K _]. now destruct b.
  - destruct (Ascii.eqb_spec c "]"%char) as [->|N0].
    + split.
      * intros K. injection K as <- <-. split; [reflexivity|intros []].
      * intros [K Nb]. destruct b as [|d b]; cbn [app] in K; [now injection K as ->|]. injection K as <- _. destruct Nb. now left.
    + split.
      * destruct (closing s) as [[b' r']|]; [|discriminate]. intros K. injection K as <- <-. destruct (proj1 (IH b' r') eq_refl) as [-> Nb].
        split; [reflexivity|]. intros [K|K]; [congruence|contradiction].
      * intros [K Nb]. destruct b as [|d b]; cbn [app] in K; injection K as K1 K2; [congruence|]. subst d.
        assert (E : closing s = Some (b, r)) by (apply IH; split; [exact K2|intros I; apply Nb; now right]). now rewrite E.
Qed.

(** What stands in brackets. *)
Definition in_brackets (label : str) : Prop := exists b, label = lit "[" ++ b ++ lit "]" /\ ~ In "]"%char b.

Lemma bracketed_spec next s label : bracketed next s = Some label <-> in_brackets label /\ exists r, s = label ++ next :: r.
Proof.
  unfold bracketed, in_brackets. destruct s as [|c s].
  - split; [discriminate|]. intros ((b & -> & _) & r & K). discriminate K.
  - destruct (Ascii.eqb_spec c "["%char) as [->|N0].
    + split.
      * destruct (closing s) as [[b [|d r]]|] eqn:C; try discriminate. destruct (Ascii.eqb_spec d next) as [->|]; [|discriminate]. intros K. injection K as <-.
        apply closing_spec in C as [-> Nb]. split; [now exists b|]. exists r. cbn [lit list_ascii_of_string app]. now rewrite <- app_assoc.
      * intros ((b & -> & Nb) & r & K). cbn [lit list_ascii_of_string app] in K. injection K as ->. rewrite <- app_assoc. cbn [app].
        assert (E : closing (b ++ "]"%char :: next :: r) = Some (b, next :: r)) by now apply closing_spec. rewrite E, Ascii.eqb_refl. reflexivity.
    + split; [discriminate|]. intros ((b & -> & _) & r & K). cbn [lit list_ascii_of_string app] in K. injection K as K _. congruence.
Qed.
Lemma found_bracketed next s : found (bracketed next s) = true <-> exists label r, in_brackets label /\ s = label ++ next :: r.
Proof.
  split.
  - destruct (bracketed next s) as [l|] eqn:E; [|discriminate]. intros _. apply bracketed_spec in E as (B & r & E). now exists l, r.
  - intros (l & r & B & E). assert (K : bracketed next s = Some l) by (apply bracketed_spec; eauto). now rewrite K.
Qed.
Lemma anywhere_spec f s : anywhere f s = true <-> exists a r, s = a ++ r /\ f r = true.
Proof.
  induction s as [|c s IH]; cbn [anywhere].
  - rewrite orb_false_r. split; [intros H; now exists [], []|]. intros (a & r & E & H). symmetry in E. apply app_eq_nil in E as [-> ->]. exact H.
  - rewrite orb_true_iff, IH. split.
    + intros [H|(a & r & -> & H)]; [now exists [], (c :: s)|now exists (c :: a), r].
    + intros (a & r & E & H). destruct a as [|d a]; cbn [app] in E; [left; now rewrite E|]. injection E as <- ->. right. now exists a, r.
Qed.

(** C125: the test against inline links succeeds exactly if nowhere in the readme brackets without
    a closing bracket inside are followed by a parenthesis. *)
Theorem C125_inline :
  forall readme : str,
    no_inline_links readme = true <-> ~ exists a b c, readme = a ++ lit "[" ++ b ++ lit "](" ++ c /\ ~ In "]"%char b.
Proof.
  intros readme. unfold no_inline_links. rewrite negb_true_iff, <- not_true_iff_false, anywhere_spec.
  assert (E : (exists a r, readme = a ++ r /\ found (bracketed "(" r) = true) <-> exists a b c, readme = a ++ lit "[" ++ b ++ lit "](" ++ c /\ ~ In "]"%char b).
  { split.
    - intros (a & r & -> & H). apply found_bracketed in H as (l & r' & (b & -> & Nb) & ->). exists a, b, r'. split; [|exact Nb]. now rewrite <- !app_assoc.
    - intros (a & b & c & -> & Nb). exists a, (lit "[" ++ b ++ lit "](" ++ c). split; [reflexivity|]. apply found_bracketed.
      exists (lit "[" ++ b ++ lit "]"), c. split; [now exists b|]. now rewrite <- !app_assoc. }
  now rewrite E.
Qed.
Print Assumptions C125_inline.

(** The text of a link (CommonMark): brackets in it are matched. *)
Inductive link_text : str -> Prop :=
| lt_nil : link_text []
| lt_char c s : c <> "["%char -> c <> "]"%char -> link_text s -> link_text (c :: s)
| lt_nest s t : link_text s -> link_text t -> link_text (lit "[" ++ s ++ lit "]" ++ t).

(** C125: an inline link of which the text has brackets in it is not noticed. *)
Theorem C125_inline_refuted :
  exists (text target : str), link_text text /\ text <> [] /\ target <> [] /\
    no_inline_links (lit "See " ++ lit "[" ++ text ++ lit "](" ++ target ++ lit ")") = true.
Proof.
  exists (lit "a[i]b"), (lit "https://a.b"). split; [|split; [discriminate|split; [discriminate|vm_compute; reflexivity]]].
  constructor; [discriminate|discriminate|]. apply (lt_nest (lit "i") (lit "b")); constructor; try discriminate; constructor.
Qed.
Print Assumptions C125_inline_refuted.

Lemma sort_fixed l : StronglySorted text_le l -> sort l = l.
Proof.
  induction 1 as [|x l S IH F]; [reflexivity|]. cbn [sort fold_right]. fold (sort l). rewrite IH. destruct l as [|y l]; [reflexivity|]. cbn [sort_insert].
  rewrite Forall_forall in F. pose proof (F y (or_introl eq_refl)) as K. apply text_le_cmp in K. now destruct (str_cmp x y).
Qed.
Lemma sort_le l : StronglySorted text_le (sort l).
Proof.
  induction l as [|x l IH]; [constructor|]. cbn [sort fold_right]. fold (sort l). induction IH as [|y s S IHs F]; cbn [sort_insert]; [repeat constructor|].
  rewrite Forall_forall in F. pose proof (text_le_cmp x y) as C. pose proof (str_cmp_spec x y) as C2. destruct (str_cmp x y).
  1,2: (constructor; [constructor; [exact S|now apply Forall_forall]|]; constructor; [now apply C|]; apply Forall_forall; intros z I; eapply text_le_trans; [now apply C|auto]).
  constructor; [exact IHs|]. apply Forall_forall. intros z I. apply sort_insert_in in I as [->|I]; [now right|auto].
Qed.
Lemma filter_split {A} (f : A -> bool) l a x b : filter f l = a ++ x :: b -> exists l1 l2, l = l1 ++ x :: l2 /\ filter f l1 = a /\ filter f l2 = b /\ f x = true.
Proof.
  revert a. induction l as [|y l IH]; intros a E; [now destruct a|]. cbn [filter] in E. destruct (f y) eqn:F.
  - destruct a as [|z a]; cbn [app] in E; injection E as -> E; [now exists [], l|]. destruct (IH a E) as (l1 & l2 & -> & <- & <- & Fx).
    exists (z :: l1), l2. cbn [filter]. rewrite F. auto.
  - destruct (IH a E) as (l1 & l2 & -> & <- & <- & Fx). exists (y :: l1), l2. cbn [filter]. rewrite F. auto.
Qed.

(** C125: the test of the order of the definitions succeeds exactly if no line with a definition
    is before one that is less. *)
Theorem C125_sorted :
  forall readme : str,
    let definition l := exists label target, in_brackets label /\ l = label ++ lit ":" ++ target in
    links_are_sorted readme = true <->
    forall before l between l' rest, lines readme = before ++ l :: between ++ l' :: rest -> definition l -> definition l' -> text_le l l'.
Proof.
  intros readme definition. unfold links_are_sorted.
  assert (D : forall l, found (bracketed ":" l) = true <-> definition l) by (intros l; apply found_bracketed).
  assert (S : (if list_eq_dec str_dec (sort (links readme)) (links readme) then true else false) = true <-> StronglySorted text_le (links readme)).
  { destruct (list_eq_dec str_dec (sort (links readme)) (links readme)) as [E|E]; split; try reflexivity; try discriminate.
    - intros _. rewrite <- E. apply sort_le.
    - intros K. destruct E. now apply sort_fixed. }
  rewrite S. unfold links. split.
  - intros K b l m l' r E Dl Dl'. apply D in Dl, Dl'. rewrite E, filter_app in K. cbn [filter] in K. rewrite Dl, filter_app in K. cbn [filter] in K. rewrite Dl' in K.
    clear -K. induction (filter (fun l0 => found (bracketed ":" l0)) b) as [|z b' IH]; cbn [app] in K; apply StronglySorted_inv in K as [K F]; [|auto].
    rewrite Forall_forall in F. apply F, in_app_iff. right. now left.
  - intros H.
    assert (X : forall ls, (forall before l between l' rest, ls = before ++ l :: between ++ l' :: rest -> definition l -> definition l' -> text_le l l') ->
              StronglySorted text_le (filter (fun l => found (bracketed ":" l)) ls)).
    { clear -D. induction ls as [|y ls IH]; intros H; [constructor|]. cbn [filter].
      assert (T : StronglySorted text_le (filter (fun l => found (bracketed ":" l)) ls)).
      { apply IH. intros b l m l' r -> Dl Dl'. apply (H (y :: b) l m l' r); auto. }
      destruct (found (bracketed ":" y)) eqn:F; [|exact T]. constructor; [exact T|]. apply Forall_forall. intros z I. apply filter_In in I as [I Fz].
      apply in_split in I as (m & r & ->). apply (H [] y m z r); [reflexivity|now apply D|now apply D]. }
    now apply X.
Qed.
Print Assumptions C125_sorted.

(** ** Definitions *)

Definition line_start (start : bool) (pre : str) : Prop := (pre = [] /\ start = true) \/ exists t, pre = t ++ [LF].

Lemma line_start_cons start c pre : line_start (Ascii.eqb c LF) pre -> line_start start (c :: pre).
Proof.
  intros [[-> E]|(t & ->)]; right; [exists []; apply Ascii.eqb_eq in E; now subst c|now exists (c :: t)].
Qed.
Lemma line_start_tail start c pre : line_start start (c :: pre) -> line_start (Ascii.eqb c LF) pre.
Proof.
  intros [[K _]|(t & E)]; [discriminate K|]. destruct t as [|d t]; cbn [app] in E; injection E as -> ->; [left; split; [reflexivity|apply Ascii.eqb_refl]|right; now exists t].
Qed.

Lemma definitions_sound s : forall skip start i0 i label, In (i, label) (definitions skip start i0 s) ->
  exists pre post, s = pre ++ label ++ ":"%char :: post /\ i = i0 + List.length pre /\ in_brackets label /\ line_start start pre.
Proof.
  induction s as [|c s IH]; intros skip start i0 i label I; [destruct I|]. cbn [definitions] in I.
  assert (R : forall k, In (i, label) (definitions k (Ascii.eqb c LF) (S i0) s) ->
            exists pre post, c :: s = pre ++ label ++ ":"%char :: post /\ i = i0 + List.length pre /\ in_brackets label /\ line_start start pre).
  { intros k J. apply IH in J as (pre & post & -> & -> & B & St). exists (c :: pre), post. split; [reflexivity|]. split; [cbn [List.length]; lia|]. split; [exact B|now apply line_start_cons]. }
  destruct skip as [|k]; [|now apply (R k)]. destruct start; [|now apply (R 0)].
  destruct (bracketed ":" (c :: s)) as [l|] eqn:E; [|now apply (R 0)]. destruct I as [K|I]; [|now apply (R _ I)].
  injection K as <- <-. apply bracketed_spec in E as (B & r & E). exists [], r. cbn [app List.length]. split; [exact E|]. split; [lia|]. split; [exact B|now left].
Qed.

Lemma definitions_complete s : forall skip start i0 pre label post,
  (forall pre label post, s = pre ++ label ++ ":"%char :: post -> in_brackets label -> line_start start pre -> skip <= List.length pre -> ~ In LF label) ->
  ~ In LF (firstn skip s) -> (skip <> 0 -> start = false) ->
  s = pre ++ label ++ ":"%char :: post -> in_brackets label -> line_start start pre -> In (i0 + List.length pre, label) (definitions skip start i0 s).
Proof.
  induction s as [|c s IH]; intros skip start i0 pre label post Ok Nl Sk E B St.
  - destruct B as (b & -> & _). now destruct pre.
  - assert (R : forall k pre', pre = c :: pre' -> (k = Nat.pred skip \/ (skip = 0 /\ exists l, bracketed ":" (c :: s) = Some l /\ start = true /\ k = List.length l)) ->
              In (i0 + List.length pre, label) (definitions k (Ascii.eqb c LF) (S i0) s)).
    { intros k pre' -> Hk. cbn [List.length]. replace (i0 + S (List.length pre')) with (S i0 + List.length pre') by lia.
      injection E as E. destruct Hk as [->|(Z & l & El & Tr & ->)].
      - apply (IH _ _ _ pre' label post); auto.
        + intros p2 l2 q2 E2 B2 S2 L2. apply (Ok (c :: p2) l2 q2); auto; [now rewrite E2|now apply line_start_cons|cbn [List.length]; lia].
        + destruct skip as [|k]; [intros []|]. intros I. apply Nl. cbn [firstn]. now right.
        + intros N1. destruct skip as [|k]; [now destruct N1|]. destruct (Ascii.eqb_spec c LF) as [->|]; [|reflexivity]. destruct Nl. now left.
        + now apply line_start_tail in St.
      - subst skip. apply bracketed_spec in El as (Bl & r & El).
        assert (Nlf : ~ In LF l). { apply (Ok [] l r); [exact El|exact Bl|now left|cbn; lia]. }
        destruct Bl as (b & -> & Nb). cbn [lit list_ascii_of_string app] in El. injection El as -> El.
        apply (IH _ _ _ pre' label post); auto.
        + intros p2 l2 q2 E2 B2 S2 L2. apply (Ok ("["%char :: p2) l2 q2); auto; [now rewrite E2|now apply line_start_cons|lia].
        + rewrite El. intros I. apply Nlf. right.
          assert (Le : List.length (lit "[" ++ b ++ lit "]") = List.length ((b ++ ["]"%char]) ++ [":"%char])) by (rewrite !app_length; cbn; lia).
          assert (T : firstn (List.length (lit "[" ++ b ++ lit "]")) ((b ++ ["]"%char]) ++ ":"%char :: r) = (b ++ ["]"%char]) ++ [":"%char]).
          { replace ((b ++ ["]"%char]) ++ ":"%char :: r) with (((b ++ ["]"%char]) ++ [":"%char]) ++ r) by (now rewrite <- (app_assoc (b ++ ["]"%char]))).
            rewrite Le, firstn_app, firstn_all, Nat.sub_diag. cbn [firstn]. apply app_nil_r. }
          rewrite T in I. apply in_app_iff in I as [I|[I|[]]]; [exact I|discriminate I].
        + now apply line_start_tail in St. }
    cbn [definitions]. destruct skip as [|k].
    + destruct pre as [|d pre].
      * destruct St as [[_ ->]|(t & K)]; [|now destruct t].
        assert (K : bracketed ":" (c :: s) = Some label) by (apply bracketed_spec; split; [exact B|now exists post]). rewrite K. left. cbn [List.length]. now rewrite Nat.add_0_r.
      * assert (d = c) as -> by (cbn [app] in E; congruence). destruct start.
        -- destruct (bracketed ":" (c :: s)) as [l|] eqn:K; [|apply (R _ pre); auto]. right. apply (R _ pre); [reflexivity|]. right. split; [reflexivity|]. now exists l.
        -- apply (R _ pre); auto.
    + destruct pre as [|d pre].
      * destruct St as [[_ K]|(t & K)]; [|now destruct t]. rewrite Sk in K; discriminate.
      * assert (d = c) as -> by (cbn [app] in E; congruence). apply (R _ pre); auto.
Qed.

Lemma defines_eq readme before label : defines readme before label <->
  exists post, readme = before ++ label ++ ":"%char :: post /\ in_brackets label /\ line_start true before.
Proof.
  unfold defines, in_brackets, line_start. split.
  - intros (b & a & El & Nb & E & S). exists a. split; [exact E|]. split; [eauto|]. destruct S; auto.
  - intros (a & E & (b & El & Nb) & S). exists b, a. split; [exact El|]. split; [exact Nb|]. split; [exact E|]. destruct S as [[S _]|S]; auto.
Qed.

(** C125: the test that labels are used succeeds if each label that a line defines occurs before
    it, and if no label goes over the end of a line, exactly then. *)
Theorem C125_used :
  forall readme : str,
    ((forall before label, defines readme before label -> occurs label before) -> links_are_used readme = true) /\
    ((forall before label, defines readme before label -> ~ In LF label) ->
     (links_are_used readme = true <-> forall before label, defines readme before label -> occurs label before)).
Proof.
  intros readme. unfold links_are_used. rewrite forallb_forall.
  assert (A : (forall before label, defines readme before label -> occurs label before) ->
            forall x, In x (definitions 0 true 0 readme) -> contains (snd x) (firstn (fst x) readme) = true).
  { intros H [i l] I. apply definitions_sound in I as (pre & post & E & -> & B & S). cbn [fst snd Nat.add].
    assert (F : firstn (List.length pre) readme = pre) by (rewrite E, firstn_app, Nat.sub_diag, firstn_all; cbn [firstn]; apply app_nil_r). rewrite F.
    apply contains_spec, H, defines_eq. eauto. }
  split; [exact A|]. intros Ok. split; [|exact A]. intros H before label D. pose proof D as D'. apply defines_eq in D as (post & E & B & S).
  assert (I : In (0 + List.length before, label) (definitions 0 true 0 readme)).
  { apply (definitions_complete readme 0 true 0 before label post); auto; [|intros K; now destruct K].
    intros p l q E2 B2 S2 _. apply (Ok p), defines_eq. eauto. }
  apply H in I. cbn [fst snd Nat.add] in I.
  assert (F : firstn (List.length before) readme = before) by (rewrite E, firstn_app, Nat.sub_diag, firstn_all; cbn [firstn]; apply app_nil_r). rewrite F in I.
  now apply contains_spec in I.
Qed.
Print Assumptions C125_used.

(** C125: it is not the same as being used: a label that occurs only after its definition, or in
    other letters, which Markdown does not tell apart, is called unused; and one that occurs in
    the target of another definition is taken as used. *)
Theorem C125_used_refuted :
  (exists label text, in_brackets label /\ links_are_used (label ++ lit ": x" ++ [LF] ++ text ++ label) = false) /\
  (exists label text, in_brackets label /\ in_brackets text /\ links_are_used (text ++ [LF] ++ label ++ lit ": x") = false /\ text = lit "[Book]" /\ label = lit "[book]") /\
  (exists label other, in_brackets label /\ in_brackets other /\ other <> label /\
     links_are_used (other ++ [LF] ++ other ++ lit ": x#" ++ label ++ [LF] ++ label ++ lit ": y") = true).
Proof.
  assert (B : forall s, ~ In "]"%char (lit s) -> in_brackets (lit "[" ++ lit s ++ lit "]")) by (intros s N0; now exists (lit s)).
  assert (N0 : forall s, existsb (Ascii.eqb "]") (lit s) = false -> ~ In "]"%char (lit s)).
  { intros s E I. assert (K : existsb (Ascii.eqb "]") (lit s) = true) by (apply existsb_exists; exists "]"%char; split; [exact I|apply Ascii.eqb_refl]). congruence. }
  split; [|split].
  - exists (lit "[a]"), (lit "See "). split; [apply (B "a"%string), N0; reflexivity|vm_compute; reflexivity].
  - exists (lit "[book]"), (lit "[Book]"). split; [apply (B "book"%string), N0; reflexivity|]. split; [apply (B "Book"%string), N0; reflexivity|]. split; [vm_compute; reflexivity|auto].
  - exists (lit "[a]"), (lit "[b]"). split; [apply (B "a"%string), N0; reflexivity|]. split; [apply (B "b"%string), N0; reflexivity|]. split; [discriminate|vm_compute; reflexivity].
Qed.
Print Assumptions C125_used_refuted.

(** C125: the test of the usage in the readme looks for what follows the second line of the
    output; if there is no more than that, it succeeds. *)
Theorem C125_usage :
  forall (readme : str) (out : bytes),
    (valid_utf8 out = false -> contains_usage readme out = Panic) /\
    (valid_utf8 out = true -> exists b, contains_usage readme out = Ret b /\
       (forall l1 l2 rest, ~ In LF l1 -> ~ In LF l2 -> out = l1 ++ [LF] ++ l2 ++ [LF] ++ rest -> (b = true <-> occurs rest readme)) /\
       ((forall l1 l2 rest, out <> l1 ++ [LF] ++ l2 ++ [LF] ++ rest) -> b = true)).
Proof.
  intros readme out. unfold contains_usage. split; [intros ->; reflexivity|]. intros ->. eexists. split; [reflexivity|].
  assert (Nil : forall s, ~ In LF s -> exists l, split_inclusive s = l /\ List.length l <= 1).
  { intros s N0. eexists. split; [reflexivity|]. destruct s as [|c s]; [cbn; lia|]. rewrite split_inclusive_last; [cbn; lia|exact N0|discriminate]. }
  assert (Cut : forall s, In LF s -> exists a r, s = a ++ [LF] ++ r /\ ~ In LF a).
  { induction s as [|c s IH]; intros I; [destruct I|]. destruct (ascii_dec c LF) as [->|Nc]; [now exists [], s|]. destruct I as [I|I]; [contradiction|].
    destruct (IH I) as (a & r & -> & Na). exists (c :: a), r. split; [reflexivity|]. intros [K|K]; contradiction. }
  assert (Line : forall l s, ~ In LF l -> split_inclusive (l ++ [LF] ++ s) = (l ++ [LF]) :: split_inclusive s).
  { intros l s N0. exact (split_inclusive_line l s N0). }
  split.
  - intros l1 l2 rest N1 N2 ->. unfold usage. rewrite (Line l1), (Line l2) by assumption. cbn [skipn]. rewrite split_inclusive_concat. apply contains_spec.
  - intros H. assert (U : usage out = []).
    { unfold usage. destruct (in_dec ascii_dec LF out) as [I|I].
      - destruct (Cut out I) as (a & r & -> & Na). rewrite Line by exact Na. cbn [skipn]. destruct (in_dec ascii_dec LF r) as [J|J].
        + destruct (Cut r J) as (a2 & r2 & -> & _). now destruct (H a a2 r2).
        + destruct (Nil r J) as (l & -> & L). destruct l as [|x [|y l]]; cbn in *; try lia; reflexivity.
      - destruct (Nil out I) as (l & -> & L). destruct l as [|x [|y l]]; cbn in *; try lia; reflexivity. }
    rewrite U. apply contains_spec. exists [], readme. reflexivity.
Qed.
Print Assumptions C125_usage.

Lemma literally_spec w : forall s prev p r, literally w s prev = Some (p, r) <-> exists x, s = x ++ r /\ like w x /\ p = after x prev.
Proof.
  induction w as [|c w IH]; intros s prev p r; cbn [literally].
  - split.
    + intros K. injection K as <- <-. now exists [].
    + intros (x & -> & L & ->). destruct x; [reflexivity|contradiction].
  - destruct s as [|d s].
    + split; [discriminate|]. intros (x & E & L & _). destruct x; [contradiction|discriminate E].
    + destruct (Ascii.eqb_spec c "."%char) as [->|N1]; [|destruct (Ascii.eqb_spec c d) as [->|N2]]; cbn [orb].
      * rewrite IH. split.
        -- intros (x & -> & L & ->). exists (d :: x). split; [reflexivity|]. split; [cbn [like]; auto|]. now rewrite after_cons.
        -- intros (x & E & L & ->). destruct x as [|e x]; [contradiction|]. cbn [app] in E. injection E as <- ->. exists x. split; [reflexivity|]. split; [apply L|]. now rewrite after_cons.
      * rewrite IH. split.
        -- intros (x & -> & L & ->). exists (d :: x). split; [reflexivity|]. split; [cbn [like]; auto|]. now rewrite after_cons.
        -- intros (x & E & L & ->). destruct x as [|e x]; [contradiction|]. cbn [app] in E. injection E as <- ->. exists x. split; [reflexivity|]. split; [apply L|]. now rewrite after_cons.
      * split; [discriminate|]. intros (x & E & L & _). destruct x as [|e x]; [contradiction|]. cbn [app] in E. injection E as <- _. destruct L as [[L|L] _]; contradiction.
Qed.

Lemma like_ends v x : In v allowed_licenses -> like v x -> wordy (hd_error x) = true /\ forall prev, wordy (after x prev) = true.
Proof.
  intros I L. unfold allowed_licenses in I. cbn [In] in I.
  repeat (destruct I as [<-|I]; [cbn [lit list_ascii_of_string] in L;
    repeat (destruct x as [|? x]; [contradiction|]; cbn [like] in L; destruct L as [[?|?] L]; try discriminate; try subst);
    try (destruct x; [|contradiction]); (split; [reflexivity|intros prev; reflexivity])|]).
  destruct I.
Qed.

(** C125: a line on a license is accepted exactly if before a colon there is one of the allowed
    names, standing alone (a dot in the name stands for any character). *)
Theorem C125_license :
  forall line : str,
    license_found None line = true <->
    exists a name x b, line = a ++ x ++ b /\ ~ In ":"%char a /\
      In name [lit "Apache-2.0"; lit "BSD-2-Clause"; lit "BSD-3-Clause"; lit "ISC"; lit "MIT"; lit "Zlib"; lit "N/A"] /\ like name x /\
      (forall t c, a = t ++ [c] -> in_word c = false) /\ (forall c t, b = c :: t -> in_word c = false).
Proof.
  assert (Here : forall prev s, license_here prev s = true <->
            exists name x b, s = x ++ b /\ In name allowed_licenses /\ like name x /\ wordy prev = false /\ wordy (hd_error b) = false).
  { intros prev s. unfold license_here. rewrite andb_true_iff, existsb_exists. split.
    - intros (H1 & v & I & H2). destruct (literally v s prev) as [[p r]|] eqn:E; [|discriminate]. apply literally_spec in E as (x & -> & L & ->).
      destruct (like_ends v x I L) as [W1 W2]. unfold boundary in *. rewrite W2 in H2.
      assert (K : wordy (hd_error (x ++ r)) = true) by (destruct x as [|c x]; [discriminate W1|exact W1]). rewrite K in H1.
      exists v, x, r. repeat split; auto; [now destruct (wordy prev)|now destruct (wordy (hd_error r))].
    - intros (v & x & b & -> & I & L & Hp & Hb). destruct (like_ends v x I L) as [W1 W2].
      assert (K : wordy (hd_error (x ++ b)) = true) by (destruct x as [|c x]; [discriminate W1|exact W1]).
      unfold boundary. rewrite Hp, K. split; [reflexivity|]. exists v. split; [exact I|].
      assert (E : literally v (x ++ b) prev = Some (after x prev, b)) by (apply literally_spec; eauto). rewrite E, W2, Hb. reflexivity. }
  assert (F : forall s prev, license_found prev s = true <-> exists a r, s = a ++ r /\ ~ In ":"%char a /\ license_here (after a prev) r = true).
  { induction s as [|c s IH]; intros prev; cbn [license_found].
    - rewrite orb_false_r. split; [intros H; exists [], []; cbn; auto|]. intros (a & r & E & _ & H). symmetry in E. apply app_eq_nil in E as [-> ->]. exact H.
    - rewrite orb_true_iff, andb_true_iff, IH, negb_true_iff. split.
      + intros [H|(Nc & a & r & -> & Na & H)]; [exists [], (c :: s); cbn; auto|]. exists (c :: a), r. rewrite after_cons. split; [reflexivity|]. split; [|exact H].
        intros [K|K]; [subst c; discriminate Nc|contradiction].
      + intros (a & r & E & Na & H). destruct a as [|d a]; cbn [app] in E; [left; now rewrite E|]. injection E as <- ->. rewrite after_cons in H. right.
        split; [destruct (Ascii.eqb_spec c ":"%char) as [->|]; [destruct Na; now left|reflexivity]|]. exists a, r. split; [reflexivity|]. split; [|exact H]. intros K. apply Na. now right. }
  intros line. rewrite F. split.
  - intros (a & r & -> & Na & H). apply Here in H as (v & x & b & -> & I & L & Hp & Hb). exists a, v, x, b. split; [reflexivity|]. split; [exact Na|]. split; [exact I|]. split; [exact L|]. split.
    + intros t c ->. unfold after in Hp. rewrite rev_app_distr in Hp. exact Hp.
    + intros c t ->. exact Hb.
  - intros (a & v & x & b & -> & Na & I & L & Ha & Hb). exists a, (x ++ b). split; [reflexivity|]. split; [exact Na|]. apply Here. exists v, x, b.
    split; [reflexivity|]. split; [exact I|]. split; [exact L|]. split.
    + destruct a as [|c a] using rev_ind; [reflexivity|]. unfold after. rewrite rev_app_distr. cbn [rev app wordy]. now apply (Ha a c).
    + destruct b as [|c b]; [reflexivity|]. now apply (Hb c b).
Qed.
Print Assumptions C125_license.

(** C125: the test as a whole panics exactly if the output is not UTF-8, and otherwise succeeds exactly
    if every line is accepted or is the one on the crates of the workspace. *)
Theorem C125_licenses :
  forall out : bytes,
    (license_test out = Panic <-> valid_utf8 out = false) /\
    (license_test out = Ret true <->
     valid_utf8 out = true /\
     forall l, In l (lines out) ->
       license_found None l = true \/
       l = lit "AGPL-3.0 WITH mif-exception (5): cargo-test-fuzz, test-fuzz, test-fuzz-internal, test-fuzz-macro, test-fuzz-runtime").
Proof.
  intros out. unfold license_test. destruct (valid_utf8 out); [|split; split; intros H; try discriminate H; try reflexivity; destruct H as (K & _); discriminate K].
  split; [split; discriminate|]. split.
  - intros H. split; [reflexivity|]. intros l I. injection H as H. rewrite forallb_forall in H. specialize (H l I). apply orb_true_iff in H as [H|H]; [right; now apply str_eqb_eq in H|now left].
  - intros (_ & H). f_equal. apply forallb_forall. intros l I. apply orb_true_iff. destruct (H l I) as [K|K]; [now right|left]. rewrite K. apply str_eqb_refl.
Qed.
Print Assumptions C125_licenses.

(** C125: so a license that is required besides an allowed one is not noticed. *)
Theorem C125_license_refuted :
  exists other : str, license_found None (other ++ lit " (1): x") = false /\ license_test (lit "Apache-2.0 AND " ++ other ++ lit " (1): x" ++ [LF]) = Ret true.
Proof. exists (lit "GPL-3.0"). split; vm_compute; reflexivity. Qed.
Print Assumptions C125_license_refuted.

Example C125_example :
  no_inline_links (lit "See [the book](x).") = false /\ no_inline_links (lit "See [the book] (x) and [a][b].") = true /\
  links_are_sorted (lit "[a]: x" ++ [LF] ++ lit "text" ++ [LF] ++ lit "[b]: y" ++ [LF]) = true /\
  links_are_sorted (lit "[b]: x" ++ [LF] ++ lit "text" ++ [LF] ++ lit "[a]: y" ++ [LF]) = false /\
  links_are_used (lit "See [a]." ++ [LF] ++ lit "[a]: x" ++ [LF] ++ lit "[b]: y" ++ [LF]) = false /\
  links_are_used (lit "See [a] or [b]." ++ [LF] ++ lit "[a]: x" ++ [LF] ++ lit "[b]: y" ++ [LF]) = true /\
  license_test (lit "Apache-2.0 OR MIT (3): a, b, c" ++ [LF] ++ own_license ++ [LF]) = Ret true /\
  license_test (lit "GPL-3.0 (1): MIT" ++ [LF]) = Ret false /\ license_test (lit "MITx (1): a" ++ [LF]) = Ret false.
Proof. vm_compute. repeat split. Qed.
