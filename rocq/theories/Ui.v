(** The terminal display: truncation, dividers, panels. *)
From Coq Require Import String List Ascii Bool Arith NArith Lia.
From Verif Require Import Base Utf8 Lines.
Import ListNotations.

Section Ui.
  (** [strip_ansi_escapes::strip] (external crate): removes escape sequences. *)
  Variable strip : bytes -> bytes.

  (** Result of the search: the final index, a panic of [&s[..mid]], or (only in the
      model) no fuel left. *)
  Inductive search := Found (n : nat) | SlicePanic | NoFuel.

  (** cargo-test-fuzz/src/lib.rs:1190-1199, the loop of [prefix_with_width]. *)
  Fixpoint pw_loop (fuel : nat) (s : str) (width min max : nat) : search :=
    if min <? max then
      match fuel with
      | 0 => NoFuel
      | S fuel' =>
          let mid := Nat.div2 (min + max) in
          match slice_to s mid with
          | None => SlicePanic
          | Some t =>
              if List.length (strip t) <? width then pw_loop fuel' s width (mid + 1) max
              else pw_loop fuel' s width min mid
          end
      end
    else Found min.

  (** cargo-test-fuzz/src/lib.rs:1187-1202 [prefix_with_width].  The fuel is the
      length of the interval, which is always enough ([pw_loop_fuel]). *)
  Definition prefix_with_width (s : str) (width : nat) : outcome str :=
    match pw_loop (List.length s) s width 0 (List.length s) with
    | Found n => match slice_to s n with Some t => Ret t | None => Panic end
    | SlicePanic => Panic
    | NoFuel => Panic
    end.

  (** cargo-test-fuzz/src/lib.rs:1174-1184 [divider_with_width]. *)
  Definition divider_with_width (target : str) (width : nat) : outcome str :=
    let prefix := target ++ lit " " in
    if width <=? List.length prefix then prefix_with_width prefix width
    else Ret (prefix ++ repeat "-"%char (width - List.length prefix)).

  (** cargo-test-fuzz/src/lib.rs:1079-1088 [Child], without the process handle, the
      pipe and the printed command. *)
  Record child := {
    ch_target : str;
    ch_buffer : list str;
    ch_data : cdata;
  }.

  (** cargo-test-fuzz/src/lib.rs:1146-1151 [n_child_rows]. *)
  Definition child_rows (avail n i : nat) : nat :=
    avail / n + (if i <? avail mod n then 1 else 0).

  (** cargo-test-fuzz/src/lib.rs:1142-1161, the body of the loop of [refresh]: the rows
      printed (divider first; each followed by "clear to end of line" and a line
      feed, which are not represented) and the child with its buffer drained. *)
  Definition draw_panel (cols h : nat) (c : child) : outcome (list str * child) :=
    bind (divider_with_width (ch_target c) cols) (fun d =>
      let skip := List.length (ch_buffer c) - h in
      let buf := skipn skip (ch_buffer c) in
      bind (mapM (fun i => match nth_error buf i with
                           | Some line => prefix_with_width line cols
                           | None => Ret []
                           end) (seq 0 h))
           (fun rows => Ret (d :: rows, {| ch_target := ch_target c; ch_buffer := buf; ch_data := ch_data c |}))).

  (** cargo-test-fuzz/src/lib.rs:1141-1162, the loop over the running children;
      [i] is [i_child]. *)
  Fixpoint draw_panels (cols avail n i : nat) (cs : list (option child))
    : outcome (list str * list (option child)) :=
    match cs with
    | [] => Ret ([], [])
    | None :: cs' => bind (draw_panels cols avail n i cs') (fun r => Ret (fst r, None :: snd r))
    | Some c :: cs' =>
        bind (draw_panel cols (child_rows avail n i) c) (fun rc =>
          bind (draw_panels cols avail n (S i) cs') (fun r =>
            Ret (fst rc ++ fst r, Some (snd rc) :: snd r)))
    end.

  (** Number of running children ([children.iter_mut().flatten().count()]). *)
  Fixpoint n_running {A} (cs : list (option A)) : nat :=
    match cs with
    | [] => 0
    | None :: cs' => n_running cs'
    | Some _ :: cs' => S (n_running cs')
    end.

  (** cargo-test-fuzz/src/lib.rs:1119-1163 [Child::refresh]; [size] is the terminal
      size as (rows, columns), [None] if it cannot be determined. *)
  Definition refresh (no_ui : bool) (size : option (nat * nat)) (n_children : nat)
      (cs : list (option child)) : outcome (list str * list (option child)) :=
    if no_ui then Ret ([], cs)
    else match size with
         | None => Panic
         | Some (rows, cols) =>
             if rows <? n_children + 1 then Ret ([], cs)
             else
               let avail := rows - (n_children + 1) in
               if Nat.eqb n_children (n_running cs) then draw_panels cols avail n_children 0 cs
               else Panic
         end.

  (** * Specification *)

  (** [strip] only ever adds to what it has shown when given more text. *)
  Definition streaming : Prop := forall a b, exists c, strip (a ++ b) = strip a ++ c.

  (** What truncation to a width means: [p] is the shortest initial part of [s]
      showing [width] bytes, or all of [s] if [s] shows fewer. *)
  Definition truncation (s : str) (width : nat) (p : str) : Prop :=
    (exists r, s = p ++ r) /\
    (List.length (strip s) < width -> p = s) /\
    (width <= List.length (strip s) ->
       width <= List.length (strip p) /\
       forall q r, p = q ++ r -> r <> [] -> List.length (strip q) < width).

  (** * Proofs *)

  Hypothesis Hstream : streaming.

  Lemma shown_mono s i j : i <= j ->
    List.length (strip (firstn i s)) <= List.length (strip (firstn j s)).
  Proof.
    intros H. rewrite <- (firstn_skipn i (firstn j s)), firstn_firstn, Nat.min_l by exact H.
    destruct (Hstream (firstn i s) (skipn i (firstn j s))) as [c ->]. rewrite app_length. lia.
  Qed.

  Lemma slice_to_some s i t : slice_to s i = Some t -> t = firstn i s.
  Proof. unfold slice_to. destruct (is_char_boundary s i); congruence. Qed.

  Lemma pw_loop_spec s width fuel min max n :
    pw_loop fuel s width min max = Found n -> min <= max <= List.length s ->
    (forall j, j < min -> List.length (strip (firstn j s)) < width) ->
    (max = List.length s \/ width <= List.length (strip (firstn max s))) ->
    n <= List.length s /\ (forall j, j < n -> List.length (strip (firstn j s)) < width) /\
    (n = List.length s \/ width <= List.length (strip (firstn n s))).
  Proof.
    revert min max; induction fuel as [|fuel IH]; intros min max; cbn [pw_loop].
    - destruct (min <? max) eqn:E; [discriminate|]. apply Nat.ltb_ge in E. intros [= <-] B L U.
      assert (min = max) by lia. subst. repeat split; auto; lia.
    - destruct (min <? max) eqn:E.
      + apply Nat.ltb_lt in E. cbv zeta. set (mid := Nat.div2 (min + max)).
        assert (Hm : min <= mid < max).
        { unfold mid. rewrite Nat.div2_div. split; [apply Nat.div_le_lower_bound; lia|apply Nat.div_lt_upper_bound; lia]. }
        clearbody mid. destruct (slice_to s mid) as [t|] eqn:S; [|discriminate].
        apply slice_to_some in S. subst t.
        destruct (List.length (strip (firstn mid s)) <? width) eqn:W.
        * apply Nat.ltb_lt in W. intros H B L U. apply (IH _ _ H); [lia| |exact U].
          intros j Hj. eapply Nat.le_lt_trans; [apply (shown_mono s j mid); lia|exact W].
        * apply Nat.ltb_ge in W. intros H B L U. apply (IH _ _ H); [lia|exact L|right; exact W].
      + apply Nat.ltb_ge in E. intros [= <-] B L U.
        assert (min = max) by lia. subst. repeat split; auto; lia.
  Qed.

  Lemma pw_loop_fuel s width fuel min max :
    max - min <= fuel -> pw_loop fuel s width min max <> NoFuel.
  Proof.
    revert min max; induction fuel as [|fuel IH]; intros min max B; cbn [pw_loop].
    - destruct (min <? max) eqn:E; [apply Nat.ltb_lt in E; lia|discriminate].
    - destruct (min <? max) eqn:E; [|discriminate]. apply Nat.ltb_lt in E. cbv zeta.
      set (mid := Nat.div2 (min + max)).
      assert (Hm : min <= mid < max).
      { unfold mid. rewrite Nat.div2_div. split; [apply Nat.div_le_lower_bound; lia|apply Nat.div_lt_upper_bound; lia]. }
      clearbody mid. destruct (slice_to s mid) as [t|]; [|discriminate].
      destruct (List.length (strip t) <? width); apply IH; lia.
  Qed.

  Lemma pw_loop_ascii s width fuel min max :
    is_ascii s -> min <= max <= List.length s -> pw_loop fuel s width min max <> SlicePanic.
  Proof.
    intros A. revert min max; induction fuel as [|fuel IH]; intros min max B; cbn [pw_loop].
    - destruct (min <? max); discriminate.
    - destruct (min <? max) eqn:E; [|discriminate]. apply Nat.ltb_lt in E. cbv zeta.
      set (mid := Nat.div2 (min + max)).
      assert (Hm : min <= mid < max).
      { unfold mid. rewrite Nat.div2_div. split; [apply Nat.div_le_lower_bound; lia|apply Nat.div_lt_upper_bound; lia]. }
      clearbody mid. rewrite ascii_slice by (auto; lia).
      destruct (List.length _ <? width); apply IH; lia.
  Qed.

  Lemma prefix_truncation s width p : prefix_with_width s width = Ret p -> truncation s width p.
  Proof.
    unfold prefix_with_width. destruct (pw_loop _ s width 0 (List.length s)) as [n| |] eqn:E; try discriminate.
    destruct (slice_to s n) as [t|] eqn:S; [|discriminate]. intros [= ->].
    apply slice_to_some in S. subst p.
    apply pw_loop_spec in E; [|lia|intros j Hj; lia|left; reflexivity].
    destruct E as (Hn & L & U). split; [|split].
    - exists (skipn n s). symmetry. apply firstn_skipn.
    - intros W. destruct U as [->|U]; [apply firstn_all|]. exfalso.
      pose proof (shown_mono s n (List.length s) Hn) as M. rewrite firstn_all in M. lia.
    - intros W. split.
      + destruct U as [->|U]; [now rewrite firstn_all|exact U].
      + intros q r Hq Hr. specialize (L (List.length q)).
        assert (Lq : List.length q < n).
        { assert (List.length (firstn n s) = List.length q + List.length r) by (rewrite Hq; apply app_length).
          rewrite firstn_length, Nat.min_l in H by exact Hn. destruct r; [contradiction|]. simpl in H. lia. }
        specialize (L Lq).
        assert (firstn (List.length q) s = q).
        { assert (G : firstn (List.length q) (firstn n s) = q).
          { rewrite Hq, firstn_app, firstn_all, Nat.sub_diag, firstn_O, app_nil_r. reflexivity. }
          rewrite firstn_firstn, Nat.min_l in G by lia. exact G. }
        now rewrite H in L.
  Qed.

  Lemma prefix_ascii s width : is_ascii s -> exists p, prefix_with_width s width = Ret p.
  Proof.
    intros A. unfold prefix_with_width.
    destruct (pw_loop _ s width 0 (List.length s)) as [n| |] eqn:E.
    - apply pw_loop_spec in E; [|lia|intros j Hj; lia|left; reflexivity].
      rewrite ascii_slice by (auto; lia). eauto.
    - exfalso. eapply pw_loop_ascii; [exact A| |exact E]. lia.
    - exfalso. eapply pw_loop_fuel; [|exact E]. lia.
  Qed.

  Lemma truncation_unique s w p p' : truncation s w p -> truncation s w p' -> p = p'.
  Proof.
    assert (K : forall a b, truncation s w a -> truncation s w b -> List.length a <= List.length b -> a = b).
    { intros a b ((ra & Ea) & A1 & A2) ((rb & Eb) & B1 & B2) L.
      assert (Hab : b = a ++ skipn (List.length a) b).
      { rewrite <- (firstn_skipn (List.length a) b) at 1. f_equal.
        rewrite Ea in Eb. apply (f_equal (firstn (List.length a))) in Eb.
        rewrite !firstn_app, Nat.sub_diag, firstn_all, firstn_O, app_nil_r in Eb.
        replace (List.length a - List.length b) with 0 in Eb by lia. rewrite firstn_O, app_nil_r in Eb. congruence. }
      destruct (skipn (List.length a) b) as [|c t] eqn:Et; [rewrite app_nil_r in Hab; congruence|].
      exfalso. destruct (le_lt_dec w (List.length (strip s))) as [W|W].
      - destruct (A2 W) as [Ha _]. destruct (B2 W) as [_ Hb].
        specialize (Hb a (c :: t) Hab). assert (c :: t <> []) as Hne by discriminate. specialize (Hb Hne). lia.
      - specialize (A1 W). specialize (B1 W). subst b. subst a.
        apply (f_equal (@List.length _)) in Hab. rewrite app_length in Hab. simpl in Hab. lia. }
    intros Hp Hp'. destruct (Nat.le_ge_cases (List.length p) (List.length p')); [auto|symmetry; auto].
  Qed.

  Lemma prefix_plain s width :
    is_ascii s -> (forall i, strip (firstn i s) = firstn i s) ->
    prefix_with_width s width = Ret (firstn width s).
  Proof.
    intros A P. destruct (prefix_ascii s width A) as [p Hp]. rewrite Hp. f_equal.
    apply prefix_truncation in Hp. apply (truncation_unique s width); [exact Hp|].
    assert (Ps : strip s = s) by (rewrite <- (firstn_all s) at 1; rewrite P; apply firstn_all).
    split; [exists (skipn width s); symmetry; apply firstn_skipn|]. split.
    - intros W. rewrite Ps in W. rewrite firstn_all2 by lia. reflexivity.
    - intros W. rewrite Ps in W. rewrite P. split; [rewrite firstn_length; lia|].
      intros q r E N.
      assert (Hq : q = firstn (List.length q) s).
      { assert (G : firstn (List.length q) (firstn width s) = q).
        { rewrite E, firstn_app, firstn_all, Nat.sub_diag, firstn_O, app_nil_r. reflexivity. }
        rewrite firstn_firstn in G.
        assert (L : List.length q < width).
        { apply (f_equal (@List.length _)) in E. rewrite firstn_length, app_length in E. destruct r; [contradiction|]. simpl in E. lia. }
        rewrite Nat.min_l in G by lia. congruence. }
      assert (Sq : strip q = q) by (rewrite Hq; apply P). rewrite Sq. clear Hq Sq.
      apply (f_equal (@List.length _)) in E. rewrite firstn_length, app_length in E.
      destruct r; [contradiction|]. simpl in E. lia.
  Qed.

  Lemma divider_plain target width :
    is_ascii target -> (forall i, strip (firstn i (target ++ lit " ")) = firstn i (target ++ lit " ")) ->
    divider_with_width target width
    = Ret (firstn width ((target ++ lit " ") ++ repeat "-"%char (width - List.length (target ++ lit " ")))).
  Proof.
    intros A P. unfold divider_with_width. cbv zeta.
    assert (A' : is_ascii (target ++ lit " ")).
    { apply is_ascii_app. split; [exact A|]. apply is_ascii_dec. reflexivity. }
    destruct (width <=? List.length (target ++ lit " ")) eqn:E.
    - apply Nat.leb_le in E. rewrite prefix_plain by assumption.
      f_equal. set (p := target ++ lit " ") in *. rewrite firstn_app.
      replace (width - List.length p) with 0 by lia. rewrite firstn_O, app_nil_r. reflexivity.
    - apply Nat.leb_gt in E. f_equal.
      rewrite firstn_all2; [reflexivity|]. rewrite (app_length (target ++ lit " ")), repeat_length. lia.
  Qed.

  (** ** Panels *)

  (** A screen: for each running child its divider, then the newest lines that fit in
      its height, then empty rows. *)
  Inductive screen (cols : nat) :
    list (option child) -> list nat -> list str -> list (option child) -> Prop :=
  | sc_nil : screen cols [] [] [] []
  | sc_none cs hs rows cs' : screen cols cs hs rows cs' -> screen cols (None :: cs) hs rows (None :: cs')
  | sc_some c cs h hs d old new shown rows cs' :
      divider_with_width (ch_target c) cols = Ret d ->
      ch_buffer c = old ++ new -> List.length new <= h -> (old <> [] -> List.length new = h) ->
      Forall2 (fun l p => truncation l cols p) new shown ->
      screen cols cs hs rows cs' ->
      screen cols (Some c :: cs) (h :: hs) ((d :: shown ++ repeat [] (h - List.length new)) ++ rows)
        (Some {| ch_target := ch_target c; ch_buffer := new; ch_data := ch_data c |} :: cs').

  Fixpoint sum (l : list nat) : nat := match l with [] => 0 | a :: l' => a + sum l' end.

  Lemma mapM_app A B (f : A -> outcome B) l1 l2 :
    mapM f (l1 ++ l2) = bind (mapM f l1) (fun a => bind (mapM f l2) (fun b => Ret (a ++ b))).
  Proof.
    induction l1 as [|a l1 IH]; simpl.
    - destruct (mapM f l2); reflexivity.
    - destruct (f a); simpl; auto. rewrite IH. destruct (mapM f l1); simpl; auto.
      destruct (mapM f l2); reflexivity.
  Qed.

  Lemma mapM_ext A B (f g : A -> outcome B) l : (forall a, In a l -> f a = g a) -> mapM f l = mapM g l.
  Proof.
    induction l as [|a l IH]; intros H; simpl; [reflexivity|].
    rewrite (H a (or_introl eq_refl)), IH; [reflexivity|]. intros b Hb. apply H. right; exact Hb.
  Qed.

  Lemma draw_lines_from cols h : forall k (buf : list str) rows,
    List.length buf <= h ->
    mapM (fun i => match nth_error buf (i - k) with Some line => prefix_with_width line cols | None => Ret [] end) (seq k h) = Ret rows ->
    exists shown, rows = shown ++ repeat [] (h - List.length buf) /\ Forall2 (fun l p => truncation l cols p) buf shown.
  Proof.
    induction h as [|h IH]; intros k buf rows L; cbn [seq mapM].
    - destruct buf; [|simpl in L; lia]. intros [= <-]. exists []. simpl. auto.
    - rewrite Nat.sub_diag.
      assert (K : forall l, mapM (fun i => match nth_error (tl buf) (i - S k) with Some line => prefix_with_width line cols | None => Ret [] end) (seq (S k) h) = l ->
                   mapM (fun i => match nth_error buf (i - k) with Some line => prefix_with_width line cols | None => Ret [] end) (seq (S k) h) = l).
      { intros l <-. apply mapM_ext. intros i Hi. apply in_seq in Hi.
        replace (i - k) with (S (i - S k)) by lia. destruct buf; cbn [nth_error tl]; [|reflexivity].
        now destruct (i - S k). }
      rewrite (K _ eq_refl). clear K.
      destruct (mapM (fun i => match nth_error (tl buf) (i - S k) with Some line => prefix_with_width line cols | None => Ret [] end) (seq (S k) h)) as [rs| |] eqn:E.
      2, 3: destruct buf; cbn [nth_error bind]; try discriminate; destruct (prefix_with_width _ cols); discriminate.
      destruct (IH (S k) (tl buf) rs) as (shown & -> & F); [destruct buf; simpl in *; lia|exact E|].
      destruct buf as [|l buf]; cbn [nth_error bind tl] in *.
      + intros [= <-]. inversion F; subst. exists []. cbn [List.length app]. rewrite Nat.sub_0_r. split; [reflexivity|constructor].
      + destruct (prefix_with_width l cols) as [p| |] eqn:P; try discriminate. intros [= <-].
        exists (p :: shown). split; [reflexivity|]. constructor; [|exact F]. now apply prefix_truncation.
  Qed.

  Lemma draw_lines_spec cols (buf : list str) h rows :
    List.length buf <= h ->
    mapM (fun i => match nth_error buf i with Some line => prefix_with_width line cols | None => Ret [] end) (seq 0 h) = Ret rows ->
    exists shown, rows = shown ++ repeat [] (h - List.length buf) /\ Forall2 (fun l p => truncation l cols p) buf shown.
  Proof.
    intros L H. apply (draw_lines_from cols h 0 buf rows L). rewrite <- H. apply mapM_ext.
    intros i _. now rewrite Nat.sub_0_r.
  Qed.

  Lemma draw_panels_spec cols avail n cs : forall i rows cs',
    draw_panels cols avail n i cs = Ret (rows, cs') ->
    screen cols cs (map (child_rows avail n) (seq i (n_running cs))) rows cs'.
  Proof.
    induction cs as [|[c|] cs IH]; intros i rows cs'; cbn [draw_panels n_running].
    - intros [= <- <-]. constructor.
    - destruct (draw_panel cols (child_rows avail n i) c) as [[r1 c1]| |] eqn:D; try discriminate.
      cbn [bind fst snd].
      destruct (draw_panels cols avail n (S i) cs) as [[r2 cs2]| |] eqn:E; try discriminate.
      cbn [bind fst snd]. intros [= <- <-]. cbn [seq map].
      unfold draw_panel in D. set (h := child_rows avail n i) in *.
      destruct (divider_with_width (ch_target c) cols) as [d| |] eqn:V; try discriminate. cbn [bind] in D.
      cbv zeta in D. set (skip := List.length (ch_buffer c) - h) in *.
      destruct (mapM _ (seq 0 h)) as [rs| |] eqn:M in D; try discriminate. cbn [bind] in D.
      injection D as <- <-.
      assert (Lb : List.length (skipn skip (ch_buffer c)) <= h) by (rewrite skipn_length; unfold skip; lia).
      apply draw_lines_spec in M as (shown & -> & F); [|exact Lb].
      eapply (sc_some cols c cs h _ d (firstn skip (ch_buffer c))); try eassumption.
      + symmetry. apply firstn_skipn.
      + intros N. rewrite skipn_length. unfold skip.
        assert (skip <> 0) by (intros Z; apply N; rewrite Z; reflexivity). unfold skip in *. lia.
      + apply (IH (S i)). exact E.
    - destruct (draw_panels cols avail n i cs) as [[r2 cs2]| |] eqn:E; try discriminate.
      cbn [bind fst snd]. intros [= <- <-]. constructor. apply IH. exact E.
  Qed.

  Lemma Forall2_len A B (R : A -> B -> Prop) l l' : Forall2 R l l' -> List.length l = List.length l'.
  Proof. induction 1; simpl; congruence. Qed.

  Lemma screen_rows cols cs hs rows cs' :
    screen cols cs hs rows cs' -> List.length rows = sum hs + List.length hs.
  Proof.
    induction 1 as [| |c cs h hs d old new shown rows cs' Hd Hb Hl Ho F S IH]; cbn [sum List.length]; auto.
    rewrite app_length. cbn [List.length]. rewrite app_length, repeat_length, IH.
    apply Forall2_len in F. lia.
  Qed.

  Lemma child_rows_sum avail n : 0 < n -> sum (map (child_rows avail n) (seq 0 n)) = avail.
  Proof.
    intros Hn.
    assert (G : forall k, sum (map (child_rows avail n) (seq 0 k)) = k * (avail / n) + Nat.min k (avail mod n)).
    { induction k as [|k IH]; [reflexivity|].
      assert (A : forall l x, sum (l ++ [x]) = sum l + x) by (induction l; intros; simpl; [lia|rewrite IHl; lia]).
      rewrite seq_S, map_app. cbn [map]. rewrite A, IH. cbn [plus]. unfold child_rows.
      destruct (k <? avail mod n) eqn:E; [apply Nat.ltb_lt in E|apply Nat.ltb_ge in E]; lia. }
    rewrite G. pose proof (Nat.mod_upper_bound avail n). pose proof (Nat.div_mod avail n). nia.
  Qed.

  Lemma child_rows_diff avail n i j : child_rows avail n i <= S (child_rows avail n j).
  Proof. unfold child_rows. destruct (i <? _), (j <? _); lia. Qed.

  Lemma refresh_spec rows cols cs out cs' :
    0 < n_running cs -> n_running cs + 1 <= rows ->
    refresh false (Some (rows, cols)) (n_running cs) cs = Ret (out, cs') ->
    exists hs, screen cols cs hs out cs' /\ List.length hs = n_running cs /\
      sum hs + n_running cs = rows - 1 /\ List.length out = rows - 1 /\
      forall h h', In h hs -> In h' hs -> h <= S h'.
  Proof.
    intros P L H. unfold refresh in H.
    destruct (rows <? n_running cs + 1) eqn:E; [apply Nat.ltb_lt in E; lia|]. rewrite Nat.eqb_refl in H.
    apply draw_panels_spec in H.
    assert (Hs : sum (map (child_rows (rows - (n_running cs + 1)) (n_running cs)) (seq 0 (n_running cs))) + n_running cs = rows - 1).
    { rewrite child_rows_sum by exact P. lia. }
    eexists. split; [exact H|]. rewrite map_length, seq_length. split; [reflexivity|]. split; [exact Hs|]. split.
    - apply screen_rows in H. rewrite map_length, seq_length in H. lia.
    - intros h h' Hh Hh'. apply in_map_iff in Hh as (i & <- & _). apply in_map_iff in Hh' as (j & <- & _).
      apply child_rows_diff.
  Qed.

  (** When [refresh] does not panic. *)
  Lemma draw_panels_ok cols avail n cs : forall i,
    (forall c, In (Some c) cs -> is_ascii (ch_target c) /\ Forall is_ascii (ch_buffer c)) ->
    exists r, draw_panels cols avail n i cs = Ret r.
  Proof.
    induction cs as [|[c|] cs IH]; intros i H; cbn [draw_panels].
    - eauto.
    - destruct (H c (or_introl eq_refl)) as [At Ab].
      assert (D : exists rc, draw_panel cols (child_rows avail n i) c = Ret rc).
      { unfold draw_panel. assert (V : exists d, divider_with_width (ch_target c) cols = Ret d).
        { unfold divider_with_width. cbv zeta. destruct (cols <=? _); [|eauto]. apply prefix_ascii.
          apply is_ascii_app. split; [exact At|]. apply is_ascii_dec. reflexivity. }
        destruct V as [d ->]. cbn [bind]. cbv zeta.
        set (buf := skipn _ (ch_buffer c)).
        assert (Fb : Forall is_ascii buf).
        { unfold buf. rewrite <- (firstn_skipn (List.length (ch_buffer c) - child_rows avail n i) (ch_buffer c)) in Ab.
          apply Forall_app in Ab. tauto. }
        assert (M : exists rs, mapM (fun j => match nth_error buf j with Some line => prefix_with_width line cols | None => Ret [] end) (seq 0 (child_rows avail n i)) = Ret rs).
        { induction (seq 0 (child_rows avail n i)) as [|j l [rs IHl]]; [exists []; reflexivity|]. cbn [mapM]. rewrite IHl.
          destruct (nth_error buf j) as [l0|] eqn:E; [|cbn [bind]; eauto].
          apply nth_error_In in E. rewrite Forall_forall in Fb. destruct (prefix_ascii l0 cols (Fb _ E)) as [p ->].
          cbn [bind]. eauto. }
        destruct M as [rs ->]. cbn [bind]. eauto. }
      destruct D as [rc ->]. cbn [bind].
      destruct (IH (S i)) as [r ->]; [intros c' Hc'; apply H; right; exact Hc'|]. cbn [bind]. eauto.
    - destruct (IH i) as [r ->]; [intros c' Hc'; apply H; right; exact Hc'|]. cbn [bind]. eauto.
  Qed.

  Lemma screen_shape cols cs hs rows cs' :
    screen cols cs hs rows cs' ->
    Forall2 (fun a b => match a, b with
                        | None, None => True
                        | Some c, Some c' => ch_target c = ch_target c' /\ ch_data c = ch_data c' /\
                                             exists old, ch_buffer c = old ++ ch_buffer c'
                        | _, _ => False
                        end) cs cs'.
  Proof.
    induction 1 as [| |c cs h hs d old new shown rows cs' Hd Hb Hl Ho F S IH]; constructor; auto.
    cbn [ch_target ch_data ch_buffer]. repeat split; auto. eauto.
  Qed.

  (** Drawing changes nothing but the buffers. *)
  Definition same_child (a b : option child) : Prop :=
    match a, b with
    | None, None => True
    | Some c, Some c' => ch_target c = ch_target c' /\ ch_data c = ch_data c' /\
                         exists old, ch_buffer c = old ++ ch_buffer c'
    | _, _ => False
    end.

  Lemma draw_panels_same cols avail n cs : forall i rows cs',
    draw_panels cols avail n i cs = Ret (rows, cs') -> Forall2 same_child cs cs'.
  Proof.
    induction cs as [|[c|] cs IH]; intros i rows cs'; cbn [draw_panels].
    - intros [= <- <-]. constructor.
    - unfold draw_panel. destruct (divider_with_width (ch_target c) cols) as [d| |]; try discriminate.
      cbn [bind]. cbv zeta. destruct (mapM _ _) as [rs| |]; try discriminate. cbn [bind fst snd].
      destruct (draw_panels cols avail n (S i) cs) as [[r2 cs2]| |] eqn:E; try discriminate.
      cbn [bind fst snd]. intros [= <- <-]. constructor; [|eapply IH; exact E].
      cbn [same_child ch_target ch_data ch_buffer]. repeat split.
      eexists. symmetry. apply firstn_skipn.
    - destruct (draw_panels cols avail n i cs) as [[r2 cs2]| |] eqn:E; try discriminate.
      cbn [bind fst snd]. intros [= <- <-]. constructor; [exact I|]. eapply IH. exact E.
  Qed.

  Lemma same_refl cs : Forall2 same_child cs cs.
  Proof.
    induction cs as [|[c|] cs IH]; constructor; auto; cbn; auto.
    repeat split. exists []. reflexivity.
  Qed.

  Lemma refresh_same no_ui size n cs rows cs' :
    refresh no_ui size n cs = Ret (rows, cs') -> Forall2 same_child cs cs'.
  Proof.
    unfold refresh. destruct no_ui; [intros [= <- <-]; apply same_refl|].
    destruct size as [[r c]|]; [|discriminate].
    destruct (r <? n + 1); [intros [= <- <-]; apply same_refl|].
    destruct (n =? n_running cs); [|discriminate]. apply draw_panels_same.
  Qed.
End Ui.

(** A line whose middle byte lies inside a character makes truncation panic. *)
Lemma prefix_panics strip s width :
  1 < List.length s -> is_char_boundary s (Nat.div2 (List.length s)) = false ->
  prefix_with_width strip s width = Panic.
Proof.
  intros L B. unfold prefix_with_width. destruct (List.length s) as [|n] eqn:E; [lia|].
  cbn [pw_loop]. cbn [Nat.ltb Nat.leb]. cbv zeta. rewrite Nat.add_0_l. unfold slice_to at 1. rewrite B. reflexivity.
Qed.

(** A stripper that works as a stream: output depends on a state updated per byte. *)
Fixpoint transduce {S : Type} (f : S -> ascii -> S * bytes) (q : S) (s : bytes) : bytes :=
  match s with
  | [] => []
  | c :: s' => let (q', o) := f q c in o ++ transduce f q' s'
  end.

Lemma transduce_streaming S (f : S -> ascii -> S * bytes) q : streaming (transduce f q).
Proof.
  intros a. revert q. induction a as [|c a IH]; intros q b; simpl; [eauto|].
  destruct (f q c) as [q' o]. destruct (IH q' b) as [d E]. exists d. rewrite E. apply app_assoc.
Qed.

(** A small instance for examples: removes ESC [ ... letter sequences. *)
Inductive csi := CText | CEsc | CSeq.
Definition csi_step (q : csi) (c : ascii) : csi * bytes :=
  match q with
  | CText => if N.eqb (byte c) 27 then (CEsc, []) else (CText, [c])
  | CEsc => if ascii_dec c "["%char then (CSeq, []) else (CText, [])
  | CSeq => if in_range 64 126 c then (CText, []) else (CSeq, [])
  end.
Definition strip_csi : bytes -> bytes := transduce csi_step CText.
