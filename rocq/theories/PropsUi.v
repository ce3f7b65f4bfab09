(** Properties C61-C64: the terminal display. *)
From Coq Require Import String List Ascii Bool Arith NArith Lia.
From Verif Require Import Base Utf8 Lines Ui.
Import ListNotations.

(** C61: truncation gives the shortest initial part of the line that shows [width]
    bytes, or the whole line, for every stream-like removal of escape sequences. *)
Theorem C61_truncation :
  forall (strip : bytes -> bytes), streaming strip ->
  forall (s : str) (width : nat) (p : str),
    prefix_with_width strip s width = Ret p ->
    (exists r, s = p ++ r) /\
    (List.length (strip s) < width -> p = s) /\
    (width <= List.length (strip s) ->
       width <= List.length (strip p) /\
       forall q r, p = q ++ r -> r <> [] -> List.length (strip q) < width).
Proof. exact prefix_truncation. Qed.
Print Assumptions C61_truncation.

(** C61: and ASCII lines always have one. *)
Theorem C61_ascii_lines_never_panic :
  forall (strip : bytes -> bytes), streaming strip ->
  forall (s : str) (width : nat), is_ascii s -> exists p, prefix_with_width strip s width = Ret p.
Proof. exact prefix_ascii. Qed.
Print Assumptions C61_ascii_lines_never_panic.

Definition esc : ascii := ascii_of_nat 27.

Example C61_example :
  streaming strip_csi /\
  prefix_with_width strip_csi ([esc] ++ lit "[1mabcdef") 3 = Ret ([esc] ++ lit "[1mabc") /\
  prefix_with_width strip_csi (lit "ab" ++ [esc] ++ lit "[0m") 3 = Ret (lit "ab" ++ [esc] ++ lit "[0m").
Proof. split; [apply transduce_streaming|]. split; vm_compute; reflexivity. Qed.

(** C62: a line of two or more bytes whose middle byte is inside a character makes it
    panic, for every width and every way to remove escape sequences. *)
Theorem C62_panics_inside_character :
  forall (strip : bytes -> bytes) (s : str) (width : nat),
    1 < List.length s -> is_char_boundary s (Nat.div2 (List.length s)) = false ->
    prefix_with_width strip s width = Panic.
Proof. exact prefix_panics. Qed.
Print Assumptions C62_panics_inside_character.

(** C62: such lines exist among valid UTF-8: "truncation of valid text succeeds" is refuted. *)
Theorem C62_truncation_total_refuted :
  exists s : str, valid_utf8 s = true /\
    forall strip width, prefix_with_width strip s width = Panic.
Proof.
  exists [ascii_of_N 195; ascii_of_N 169]. split; [reflexivity|].
  intros strip width. apply prefix_panics; [simpl; lia|reflexivity].
Qed.
Print Assumptions C62_truncation_total_refuted.

Example C62_example :
  let s := lit "caf" ++ [ascii_of_N 195; ascii_of_N 169] ++ lit "xyz" in
  valid_utf8 s = true /\ is_char_boundary s (Nat.div2 (List.length s)) = false /\
  prefix_with_width strip_csi s 80 = Panic.
Proof. cbv zeta. repeat split; vm_compute; reflexivity. Qed.

(** C63: dividers of plain ASCII target names are exactly as wide as requested: the
    name, a space and dashes, cut to the width. *)
Theorem C63_divider :
  forall (strip : bytes -> bytes), streaming strip ->
  forall (target : str) (width : nat),
    is_ascii target ->
    (forall i, strip (firstn i (target ++ lit " ")) = firstn i (target ++ lit " ")) ->
    exists d, divider_with_width strip target width = Ret d /\ List.length d = width /\
      exists n, d = firstn width (target ++ lit " " ++ repeat "-"%char n).
Proof.
  intros strip Hs target width A P.
  exists (firstn width ((target ++ lit " ") ++ repeat "-"%char (width - List.length (target ++ lit " ")))).
  split; [apply divider_plain; assumption|]. split.
  - rewrite firstn_length, (app_length (target ++ lit " ")), repeat_length. lia.
  - eexists. rewrite <- app_assoc. reflexivity.
Qed.
Print Assumptions C63_divider.

Example C63_example :
  divider_with_width strip_csi (lit "mod::parse") 16 = Ret (lit "mod::parse -----") /\
  divider_with_width strip_csi (lit "mod::parse") 7 = Ret (lit "mod::pa").
Proof. split; vm_compute; reflexivity. Qed.

(** C64: the panels of the running fuzzers fill all rows but the last; heights differ
    by at most one; each panel is a divider followed by the truncated newest lines of
    its fuzzer and empty rows, and the buffer keeps exactly the lines shown
    ([screen] in Ui.v). *)
Theorem C64_panels_fill_screen :
  forall (strip : bytes -> bytes), streaming strip ->
  forall (rows cols : nat) (cs : list (option child)) (out : list str) (cs' : list (option child)),
    0 < n_running cs -> n_running cs + 1 <= rows ->
    refresh strip false (Some (rows, cols)) (n_running cs) cs = Ret (out, cs') ->
    List.length out = rows - 1 /\
    exists hs : list nat,
      screen strip cols cs hs out cs' /\ List.length hs = n_running cs /\
      sum hs + n_running cs = rows - 1 /\
      forall h h', In h hs -> In h' hs -> h <= h' + 1.
Proof.
  intros strip Hs rows cols cs out cs' P L H.
  destruct (refresh_spec strip Hs rows cols cs out cs' P L H) as (hs & H1 & H2 & H3 & H4 & H5).
  split; [exact H4|]. exists hs. repeat split; auto. intros h h' I I'. specialize (H5 h h' I I'). lia.
Qed.
Print Assumptions C64_panels_fill_screen.

(** C64: on a terminal that is too small, or without the display, nothing is drawn and
    nothing is lost. *)
Theorem C64_small_terminal :
  forall (strip : bytes -> bytes) (rows cols n : nat) (cs : list (option child)) size,
    (rows < n + 1 -> refresh strip false (Some (rows, cols)) n cs = Ret ([], cs)) /\
    refresh strip true size n cs = Ret ([], cs).
Proof.
  intros strip rows cols n cs size. split; [|reflexivity].
  intros H. unfold refresh. apply Nat.ltb_lt in H. now rewrite H.
Qed.
Print Assumptions C64_small_terminal.

Definition ex_child (t : string) (ls : list string) : option child :=
  Some {| ch_target := lit t; ch_buffer := map lit ls; ch_data := cd_init |}.

Example C64_example :
  refresh strip_csi false (Some (8, 6)) 2 [ex_child "a" ["1"; "2"; "3"; "4"]%string; None; ex_child "b" ["longer line"%string]]
  = Ret (map lit ["a ----"; "2"; "3"; "4"; "b ----"; "longer"; ""]%string,
         [ex_child "a" ["2"; "3"; "4"]%string; None; ex_child "b" ["longer line"%string]]).
Proof. vm_compute. reflexivity. Qed.
