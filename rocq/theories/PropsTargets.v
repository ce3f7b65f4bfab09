(** Properties C11, C12, C13: discovery and selection of fuzz targets. *)
From Coq Require Import List Ascii String Bool.
From Verif Require Import Base Utf8 Targets.
Import ListNotations.

(** C11: for every listing whose lines are UTF-8, the targets found are exactly
    those of the lines [T_fuzz__::entry: test], in order. *)
Theorem C11_targets_exact :
  forall (ls : list (str * bool)) (last : str),
    Forall line_ok ls -> ~ In LF last ->
    Forall (fun l => valid_utf8 l = true) (all_lines ls last) ->
    exists ts, targets (render ls last) = Ret ts /\ listing_targets (all_lines ls last) ts.
Proof. exact targets_exact. Qed.
Print Assumptions C11_targets_exact.

(** C11: listings cover every byte string, so C11_targets_exact and
    C11_targets_invalid together describe [targets] completely. *)
Theorem C11_listings_cover_all_outputs :
  forall s : bytes, exists ls last, Forall line_ok ls /\ ~ In LF last /\ s = render ls last.
Proof. exact render_complete. Qed.
Print Assumptions C11_listings_cover_all_outputs.

(** C11: a line that is not UTF-8 makes the whole command fail. *)
Theorem C11_targets_invalid :
  forall (ls : list (str * bool)) (last : str),
    Forall line_ok ls -> ~ In LF last ->
    ~ Forall (fun l => valid_utf8 l = true) (all_lines ls last) ->
    targets (render ls last) = Err (lit "Could not get output").
Proof.
  intros ls last H1 H2 H3. destruct (targets_invalid ls last H1 H2 H3) as [e H]. rewrite H. revert H. unfold targets.
  induction (split_inclusive (render ls last)) as [|p ps IH]; cbn [targets_loop]; [discriminate|].
  destruct (valid_utf8 p); [|now intros H; inversion H]. destruct (target_of_line (chomp p)); [|exact IH].
  destruct (targets_loop ps); cbn [bind]; [discriminate|intros H; apply IH; now inversion H|discriminate].
Qed.
Print Assumptions C11_targets_invalid.

(** C11: the targets of a listing are determined by its lines. *)
Theorem C11_listing_targets_unique :
  forall ls ts ts', listing_targets ls ts -> listing_targets ls ts' -> ts = ts'.
Proof. exact listing_targets_fun. Qed.
Print Assumptions C11_listing_targets_unique.

Definition C11_listing : list (str * bool) :=
  [(lit "a::foo_fuzz__::entry: test", false); (lit "a::foo_fuzz__::auto_generate: test", false);
   (lit "x: benchmark", false); (lit "bar_fuzz__::entry: test", true);
   (lit "a::foo_fuzz__::entry: test", false)].
Example C11_example :
  Forall line_ok C11_listing /\
  Forall (fun l => valid_utf8 l = true) (all_lines C11_listing (lit "trailing")) /\
  targets (render C11_listing (lit "trailing"))
  = Ret [lit "a::foo"; lit "bar"; lit "a::foo"].
Proof.
  split; [|split; [repeat constructor|reflexivity]].
  repeat (constructor; [split; [vm_compute; intuition discriminate|]|]); try constructor;
    intros Hb t Ht; try discriminate Hb;
    apply (f_equal (fun l => last l (Ascii.ascii_of_nat 0))) in Ht; rewrite last_last in Ht;
    discriminate.
Qed.

(** C12: with TARGETNAME [pat], each executable keeps exactly the targets equal to
    [pat] ([--exact]) or containing it, in order; executables left without targets
    disappear, the others stay in order. *)
Theorem C12_filter_exact :
  forall (E : Type) (exact : bool) (pat : str) (l : list (E * list str)),
    select_exes (selects exact pat) l (filter_executable_targets exact pat l).
Proof. exact filter_executable_targets_select. Qed.
Print Assumptions C12_filter_exact.

Example C12_example :
  filter_executable_targets false (lit "oo")
    [(1, [lit "foo"; lit "bar"; lit "zoo"]); (2, [lit "bar"]); (3, [lit "oo"])]
  = [(1, [lit "foo"; lit "zoo"]); (3, [lit "oo"])] /\
  filter_executable_targets true (lit "oo")
    [(1, [lit "foo"; lit "bar"; lit "zoo"]); (2, [lit "bar"]); (3, [lit "oo"])]
  = [(3, [lit "oo"])].
Proof. split; reflexivity. Qed.

(** C13: an empty selection is an error naming the pattern; otherwise every
    (executable, target) pair is listed exactly once, in order. *)
Theorem C13_flatten_exact :
  forall (E : Type) (exact : bool) (zt : option str) (l : list (E * list str)),
    (Forall (fun et => snd et = []) l /\
     flatten_executable_targets exact zt l
     = Err (lit "Found no fuzz targets" ++
            match zt with
            | None => []
            | Some pat => lit " " ++ (if exact then lit "equal to" else lit "containing")
                          ++ lit " `" ++ pat ++ lit "`"
            end))
    \/ (exists out, out <> [] /\ flatten_executable_targets exact zt l = Ret out /\ pairs l out).
Proof. exact flatten_spec. Qed.
Print Assumptions C13_flatten_exact.

Example C13_example :
  flatten_executable_targets true (Some (lit "q")) [(1, [])]
  = Err (lit "Found no fuzz targets equal to `q`") /\
  flatten_executable_targets true None [(1, [lit "a"; lit "b"]); (2, []); (3, [lit "a"])]
  = Ret [(1, lit "a"); (1, lit "b"); (3, lit "a")].
Proof. split; reflexivity. Qed.
