(** The patches of third parties' code and the scripts that change manifests and them. *)
From Coq Require Import Ascii String List Bool Arith NArith Lia.
From Verif Require Import Base Decimal SemverText InstallTest.
Import ListNotations.

(** ** Names of patches *)

(** [str::split(char)] (std). *)
Fixpoint split_on (c : ascii) (s : str) : list str :=
  match s with
  | [] => [[]]
  | a :: s' =>
      if ascii_dec a c then [] :: split_on c s'
      else match split_on c s' with [] => [[a]] | w :: l => (a :: w) :: l end
  end.
(** third-party/tests/third_party.rs:39-42 [Test::patch]: the first item from the end; unwrapping
    nothing is a panic. *)
Definition patch (url : str) : outcome str :=
  match rev (split_on "/"%char url) with w :: _ => Ret (w ++ lit ".patch") | [] => Panic end.
(** scripts/update_patches.sh:21-22: bash's [##] removes the longest beginning that ends in a
    slash; [i] is how long a beginning is still tried. *)
Fixpoint unprefixed (i : nat) (url : str) : str :=
  match i with
  | 0 => url
  | S k => match nth_error url k with
           | Some c => if ascii_dec c "/"%char then skipn (S k) url else unprefixed k url
           | None => unprefixed k url
           end
  end.
Definition script_patch (url : str) : str := unprefixed (List.length url) url ++ lit ".patch".

(** ** Which are run *)

(** third-party/tests/third_party.rs:19-25 [Flags]. *)
Record flags := mkf { expensive : bool; skip_nightly : bool }.
(** third-party/tests/third_party.rs:52-62: [full] is the feature test-full. *)
Definition no_run (full nightly : bool) (f : flags) : bool := (negb full && expensive f) || (skip_nightly f && nightly).

(** ** Whether patches are current *)

(** [[:xdigit:]] and [0-7]. *)
Definition xdigit_b (c : ascii) : bool :=
  let n := N_of_ascii c in ((48 <=? n) && (n <=? 57) || (65 <=? n) && (n <=? 70) || (97 <=? n) && (n <=? 102))%N.
Definition octal_b (c : ascii) : bool := let n := N_of_ascii c in ((48 <=? n) && (n <=? 55))%N.
(** third-party/tests/third_party.rs:246: the expression is anchored at both ends, and each item
    stands for a fixed number of characters. *)
Definition is_index (l : str) : bool :=
  (List.length l =? 29) &&
  starts_with (lit "index ") l && forallb xdigit_b (firstn 7 (skipn 6 l)) &&
  starts_with (lit "..") (skipn 13 l) && forallb xdigit_b (firstn 7 (skipn 15 l)) &&
  starts_with (lit " ") (skipn 22 l) && forallb octal_b (skipn 23 l).
(** third-party/tests/third_party.rs:286-296: [false] is a failed assertion. *)
Definition is_current (patch diff : str) : bool :=
  let p := lines patch in let d := lines diff in
  (List.length p =? List.length d) &&
  forallb (fun x => is_index (fst x) && is_index (snd x) || str_eqb (fst x) (snd x)) (combine p d).

(** ** Updating the revisions *)

(** sed's [s/old/new/] on a line, for a text without special characters. *)
Fixpoint replace_first (old new s : str) : str :=
  if starts_with old s then new ++ skipn (List.length old) s
  else match s with [] => [] | c :: s' => c :: replace_first old new s' end.
Definition quoted (s : str) : str := quote :: s ++ [quote].
(** scripts/update_patches.sh:34-38: one revision on all lines of third_party.json. *)
Definition set_rev (old new : str) (file : list str) : list str := map (replace_first (quoted old) (quoted new)) file.
(** scripts/update_patches.sh:18-41: for each repository the revision before and the one at its
    head.  The list is read before the file is changed.  Simplification: no command fails. *)
Definition set_revs (l : list (str * str)) (file : list str) : list str :=
  fold_left (fun f r => set_rev (fst r) (snd r) f) l file.

(** ** Requirements without patch versions *)

(** [[0-9]\+], which takes all digits there are. *)
Fixpoint digits (s : str) : str * str :=
  match s with
  | c :: s' => if digit_b c then let (a, r) := digits s' in (c :: a, r) else ([], s)
  | [] => ([], [])
  end.
Definition some_digits (s : str) : option (str * str) := match digits s with ([], _) => None | x => Some x end.
(** scripts/remove_patch_versions.sh:16: the expression at the beginning of a text, and what is put
    in its place. *)
Definition shortened (s : str) : option str :=
  match strip_prefix [quote] s with
  | None => None
  | Some s1 =>
  match some_digits s1 with
  | None => None
  | Some (a, s2) =>
  match strip_prefix dot s2 with
  | None => None
  | Some s3 =>
  match some_digits s3 with
  | None => None
  | Some (b, s4) =>
  match strip_prefix dot s4 with
  | None => None
  | Some s5 =>
  match some_digits s5 with
  | None => None
  | Some (_, s6) =>
  match strip_prefix [quote] s6 with
  | None => None
  | Some s7 => Some (quoted (a ++ dot ++ b) ++ s7)
  end end end end end end end.
Fixpoint shorten (s : str) : str :=
  match shortened s with
  | Some t => t
  | None => match s with [] => [] | c :: s' => c :: shorten s' end
  end.
(** The address [/^version\>/!]. *)
Definition own_version (l : str) : bool :=
  match strip_prefix (lit "version") l with Some (c :: _) => negb (in_word c) | Some [] => true | None => false end.
Definition remove_patch_version (l : str) : str := if own_version l then l else shorten l.

(** * Specification *)

(** What follows the last slash. *)
Definition last_part (url part : str) : Prop :=
  ~ In "/"%char part /\ (url = part \/ exists a, url = a ++ lit "/" ++ part).

(** A line about two contents and a mode. *)
Definition hex (s : str) : Prop := Forall (fun c => xdigit_b c = true) s.
Definition index_line (l : str) : Prop :=
  exists a b m, l = lit "index " ++ a ++ lit ".." ++ b ++ lit " " ++ m /\
    hex a /\ hex b /\ Forall (fun c => octal_b c = true) m /\
    List.length a = 7 /\ List.length b = 7 /\ List.length m = 6.

(** A revision and the line that has it (third-party/third_party.json:5). *)
Definition revision (r : str) : Prop := r <> [] /\ hex r.
Definition rev_line (r : str) : str := lit "    ""rev"": """ ++ r ++ lit """,".

(** Three numbers in quotation marks. *)
Definition number (s : str) : Prop := s <> [] /\ Forall is_digit s.
Definition triple (a b c : str) : str := quoted (a ++ lit "." ++ b ++ lit "." ++ c).
Definition has_triple (s : str) : Prop :=
  exists x a b c y, number a /\ number b /\ number c /\ s = x ++ triple a b c ++ y.
