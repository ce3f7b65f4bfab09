(** C72: what the tests of generic arguments compare with what they expect. *)
From Coq Require Import Ascii String List Bool Arith NArith Lia Sorted.
From stdpp Require Import base gmap.
From Verif Require Import Base Utf8 Lossy Dirs Opts Targets Lines Entries Sha1 Fs Write Semver GenericTest PropsEntries.
Import ListNotations.

Lemma str_find_colon n t : Forall is_hex_char n -> str_find (lit ": ") (n ++ lit ": " ++ t) = Some (length n).
Proof.
  intros F. apply str_find_first.
  - exists n, t. split; reflexivity.
  - intros j Lj (u & v & E & <-). cbn [lit] in E.
    assert (K : nth_error (n ++ lit ": " ++ t) (length u) = Some ":"%char).
    { rewrite E, nth_error_app2 by lia. now rewrite Nat.sub_diag. }
    rewrite nth_error_app1 in K by lia. apply nth_error_In in K. rewrite List.Forall_forall in F. apply F in K.
    cbv in K. decompose [or] K; try discriminate; contradiction.
Qed.

Lemma hex_ascii n : Forall is_hex_char n -> valid_utf8 n = true /\ ~ In LF n.
Proof.
  intros F. split.
  - apply ascii_valid. eapply List.Forall_impl; [|exact F]. intros c K. cbv in K. decompose [or] K; subst; try contradiction; vm_compute; reflexivity.
  - intros I. rewrite List.Forall_forall in F. apply F in I. cbv in I. decompose [or] I; try discriminate; contradiction.
Qed.

Lemma seen_lines (ns texts : list str) :
  Forall2 (fun n t => Forall is_hex_char n) ns texts ->
  mapM (fun l => match str_find (lit ": ") l with Some n => Ret (skipn (n + 2) l) | None => Panic end)
       (zip_with (fun n t => n ++ lit ": " ++ t) ns texts) = Ret texts.
Proof.
  induction 1 as [|n t ns texts F _ IH]; [reflexivity|]. cbn [zip_with mapM]. rewrite str_find_colon by exact F.
  rewrite skipn_app, skipn_all2 by lia. replace (length n + 2 - length n) with 2 by lia. cbn [bind]. rewrite IH. reflexivity.
Qed.

(** C72: the tests of generic arguments read from the tool's output exactly what was
    recorded: after any history of instantiations in a fresh directory, the comparison
    holds precisely if the expected texts are in strictly increasing order and are the
    texts of the instantiations that happened. *)
Theorem C72_seen_by_test :
  forall (o : opts) (target : str) (m : fs) (d : path) (h : list (list str)) (s : eio) (ns : list bytes),
    h <> [] -> usable m d -> (forall n, m !! (d ++ [n]) = None) ->
    no_collision (instantiations d h) ->
    (forall names, In names h -> valid_utf8 (generic_data names) = true /\ ~ In LF (generic_data names) /\
                     forall t, generic_data names <> t ++ [CR]) ->
    (forall names, In names h -> generic_data names <> []) \/ (forall names, In names h -> generic_data names = []) ->
    answers s (record_all m (instantiations d h)) d ns ->
    exists es,
      for_each_entry d o target true true s = (es, Ret tt) /\
      forall expected,
        seen_texts (stdout es) = Ret expected <->
        StronglySorted ascii_lt expected /\ (forall t, In t expected <-> exists names, In names h /\ t = generic_data names).
Proof.
  intros o target m d h s ns Hne U Fr NC V Emp An.
  destruct (C72_displayed_once o target m d h s ns Hne U Fr NC) as (es & texts & reports & E & _ & ND & IT & F2 & So); [|exact An|].
  { intros names I. destruct (V names I) as (A & B & _). split; [exact A|]. intros (t & Q). apply B. rewrite Q, in_app_iff. right. now left. }
  exists es. split; [exact E|].
  assert (Sn : seen_texts (stdout es) = Ret (sort texts)).
  { assert (P : exists ks, Forall2 (fun n t => Forall is_hex_char n) ks texts /\
                 reports = zip_with (fun n t => n ++ lit ": " ++ t ++ (if str_dec t [] then [] else [LF])) ks texts).
    { clear - F2. induction F2 as [|t r ts rs (n & _ & Hn & _ & ->) _ (ks & A & ->)]; [exists []; now split|].
      exists (n :: ks). split; [now constructor|reflexivity]. }
    destruct P as (ks & Hk & ->).
    assert (VT : forall t, In t texts -> valid_utf8 t = true /\ ~ In LF t /\ forall t', t <> t' ++ [CR]).
    { intros t I. apply IT in I as (names & I & ->). now apply V. }
    set (full := zip_with (fun n t : str => n ++ lit ": " ++ t) ks texts).
    assert (L : lines (stdout es) = full /\ valid_utf8 (stdout es) = true).
    { rewrite So. destruct Emp as [Emp|Emp].
      - assert (NE : forall t, In t texts -> t <> []) by (intros t I; apply IT in I as (names & I & ->); now apply Emp).
        assert (R : concat (zip_with (fun n t => n ++ lit ": " ++ t ++ (if str_dec t [] then [] else [LF])) ks texts)
                    = render (map (fun l => (l, false)) full) []).
        { clear - NE Hk. unfold full, render. rewrite app_nil_r, map_map. cbn [fst snd]. induction Hk as [|n t ks ts _ _ IH]; [reflexivity|].
          cbn [zip_with map List.concat]. rewrite <- IH by (intros x I; apply NE; now right).
          destruct (str_dec t []) as [Q|Q]; [now destruct (NE t (or_introl eq_refl))|]. rewrite <- !app_assoc. reflexivity. }
        rewrite R, render_valid, lines_render_complete.
        + rewrite map_map. cbn [fst]. rewrite map_id. split; [reflexivity|]. clear - Hk VT. unfold full.
          induction Hk as [|n t ks ts Hn _ IH]; [constructor|]. cbn [zip_with]. constructor; [|apply IH; intros x I; apply VT; now right].
          destruct (hex_ascii n Hn) as (A & _). rewrite valid_app by exact A. rewrite valid_app by reflexivity. apply VT. now left.
        + clear - Hk VT NE. unfold full. induction Hk as [|n t ks ts Hn _ IH]; [constructor|]. cbn [zip_with map].
          constructor; [|apply IH; intros x I; (apply VT || apply NE); now right]. destruct (VT t (or_introl eq_refl)) as (_ & B & C).
          destruct (hex_ascii n Hn) as (_ & A). split; cbn [fst snd].
          * rewrite !in_app_iff. cbn. intros [K|[K|K]]; [auto| |auto]. decompose [or] K; try discriminate; contradiction.
          * intros _ t' Q. destruct (exists_last (NE t (or_introl eq_refl))) as (a & c & Ea). subst t.
            rewrite !app_assoc in Q. apply app_inj_tail in Q as (_ & ->). now apply (C a).
      - assert (AE : forall t, In t texts -> t = []) by (intros t I; apply IT in I as (names & I & ->); now apply Emp).
        destruct h as [|n0 h']; [congruence|]. assert (I0 : In (generic_data n0) texts) by (apply IT; exists n0; split; [now left|reflexivity]).
        destruct Hk as [|n t ks ts Hn Hk]; [destruct I0|]. assert (t = []) as -> by (apply AE; now left).
        destruct Hk as [|n' t' ks ts Hn' Hk].
        + unfold full. cbn [zip_with List.concat]. destruct (str_dec [] []) as [_|Q]; [|congruence]. rewrite !app_nil_r.
          destruct (hex_ascii n Hn) as (A & B). split; [|now rewrite valid_app by exact A].
          assert (Q : n ++ lit ": " = render [] (n ++ lit ": ")) by reflexivity. rewrite Q at 1. rewrite lines_render; [|constructor|].
          * unfold all_lines. cbn [map app]. destruct n; reflexivity.
          * rewrite in_app_iff. cbn. intros [K|K]; [auto|]. decompose [or] K; try discriminate; contradiction.
        + exfalso. assert (t' = []) as -> by (apply AE; right; now left). inversion ND as [|? ? K]. apply K. now left. }
    destruct L as (L & Vd). unfold seen_texts. rewrite Vd, L. unfold full. now rewrite seen_lines by exact Hk. }
  intros expected. rewrite Sn. split.
  - intros [= <-]. split; [now apply sort_sorted|]. intros t. rewrite sort_in. apply IT.
  - intros (S1 & S2). f_equal. apply sorted_unique; [now apply sort_sorted|exact S1|]. intros x. now rewrite sort_in, IT, S2.
Qed.
Print Assumptions C72_seen_by_test.

Example C72_seen_example :
  seen_texts (corpus_name (lit "generic::Foo") ++ lit ": generic::Foo" ++ [LF] ++
              corpus_name (lit "generic::Bar") ++ lit ": generic::Bar" ++ [LF]) = Ret [lit "generic::Bar"; lit "generic::Foo"] /\
  seen_texts (corpus_name [] ++ lit ": ") = Ret [[]].
Proof. Transparent sha1 corpus_name. vm_compute. auto. Qed.
