(** What [--list] prints. *)
From Coq Require Import List Ascii String Bool Arith NArith Lia.
From Verif Require Import Base Utf8 Semver Meta.
Import ListNotations.

(** ** Debug texts of strings (std) *)

(** The characters of a UTF-8 string: each byte that is no continuation byte begins one. *)
Fixpoint chars (s : bytes) : list bytes :=
  match s with
  | [] => []
  | a :: r =>
      match r with
      | b :: _ => if is_cont b then match chars r with u :: us => (a :: u) :: us | [] => [[a]] end else [a] :: chars r
      | [] => [[a]]
      end
  end.

(** The code point of a character. *)
Definition code (u : bytes) : N :=
  match u with
  | [a] => byte a
  | [a; b] => (byte a - 192) * 64 + (byte b - 128)
  | [a; b; c] => (byte a - 224) * 4096 + (byte b - 128) * 64 + (byte c - 128)
  | [a; b; c; d] => (byte a - 240) * 262144 + (byte b - 128) * 4096 + (byte c - 128) * 64 + (byte d - 128)
  | _ => 0
  end%N.

(** Hexadecimal digits, lower case, without leading zeros. *)
Definition hex_digit (d : N) : ascii := if (d <? 10)%N then ascii_of_N (48 + d) else ascii_of_N (87 + d).
Fixpoint hex_loop (fuel : nat) (n : N) (acc : str) : str :=
  match fuel with
  | 0 => acc
  | S fuel' =>
      let acc := hex_digit (n mod 16) :: acc in
      if (n / 16 =? 0)%N then acc else hex_loop fuel' (n / 16) acc
  end.
Definition hex (n : N) : str := hex_loop (S (N.to_nat (N.log2 n))) n [].

Definition backslash : ascii := ascii_of_nat 92.
Definition quote : ascii := ascii_of_nat 34.
Definition apostrophe : ascii := ascii_of_nat 39.

Section Text.
  (** Whether std prints a character beyond ASCII as it is (its tables of printable and of
      combining characters; external). *)
  Variable printable : bytes -> bool.

  (** [char::escape_debug] (std); [all]: apostrophes are escaped as well, which they are in
      paths but not in strings. *)
  Definition escape (all : bool) (u : bytes) : str :=
    let unicode := backslash :: lit "u{" ++ hex (code u) ++ lit "}" in
    match u with
    | [a] =>
        let n := byte a in
        if (n =? 0)%N then [backslash; "0"%char]
        else if (n =? 9)%N then [backslash; "t"%char]
        else if (n =? 10)%N then [backslash; "n"%char]
        else if (n =? 13)%N then [backslash; "r"%char]
        else if Ascii.eqb a quote then [backslash; quote]
        else if Ascii.eqb a backslash then [backslash; backslash]
        else if Ascii.eqb a apostrophe then (if all then [backslash; apostrophe] else [apostrophe])
        else if (32 <=? n)%N && (n <? 127)%N then [a]
        else unicode
    | _ => if printable u then u else unicode
    end.
  Definition debug_text (all : bool) (s : bytes) : str := quote :: flat_map (escape all) (chars s) ++ [quote].

  (** ** Pretty debug texts of structures (std) *)

  (** [PadAdapter]: four blanks before each line; [nl]: at the beginning of a line. *)
  Fixpoint pad (nl : bool) (s : str) : str :=
    match s with
    | [] => []
    | c :: s => (if nl then lit "    " else []) ++ c :: pad (Ascii.eqb c LF) s
    end.
  (** One entry of a list, tuple or struct. *)
  Definition item (s : str) : str := pad true (s ++ lit "," ++ [LF]).
  (** [DebugList], [DebugTuple] without a name, and [DebugStruct] with [{:#?}]. *)
  Definition list_text (l : list str) : str :=
    match l with [] => lit "[]" | _ => lit "[" ++ [LF] ++ List.concat (map item l) ++ lit "]" end.
  Definition tuple_text (l : list str) : str :=
    match l with [] => lit "()" | _ => lit "(" ++ [LF] ++ List.concat (map item l) ++ lit ")" end.
  Definition struct_text (name : str) (l : list (str * str)) : str :=
    match l with
    | [] => name
    | _ => name ++ lit " {" ++ [LF] ++ List.concat (map (fun f => item (fst f ++ lit ": " ++ snd f)) l) ++ lit "}"
    end.

  (** [Display] of a version (semver; external). *)
  Variable show : version -> str.

  (** cargo-test-fuzz/src/lib.rs:244-263 [Debug for Executable]. *)
  Definition version_field (v : option version) : str := match v with Some v => show v | None => [] end.
  Definition executable_text (x : executable) : str :=
    struct_text (lit "Executable")
      [(lit "path", debug_text true (ex_path x)); (lit "name", debug_text false (ex_name x));
       (lit "test_fuzz_version", debug_text false (version_field (ex_test_fuzz x)));
       (lit "afl_version", debug_text false (version_field (ex_afl x)))].

  (** cargo-test-fuzz/src/lib.rs:322-324: [println!("{executable_targets:#?}")]. *)
  Definition listing_text (l : list (executable * list str)) : str :=
    list_text (map (fun et => tuple_text [executable_text (fst et); list_text (map (debug_text false) (snd et))]) l) ++ [LF].
End Text.
