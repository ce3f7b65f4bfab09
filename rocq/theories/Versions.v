(** The tests that the workspace's versions and requirements belong together. *)
From Coq Require Import Ascii String List Bool Arith NArith Lia.
From Verif Require Import Base Decimal Semver SemverText.
Import ListNotations.
Local Open Scope N_scope.

(** semver's [Op] and [Comparator] (external), with all operators. *)
Inductive rop := RExact | RGreater | RGreaterEq | RLess | RLessEq | RTilde | RCaret | RWildcard.
Record rcomp := mkr { r_op : rop; r_major : N; r_minor : option N; r_patch : option N; r_pre : list str }.

(** [Display for Comparator] and [Display for VersionReq] (semver, external), used at
    test-fuzz/tests/integration/versions.rs:35, 62. *)
Definition show_op (o : rop) : str :=
  match o with
  | RExact => lit "=" | RGreater => lit ">" | RGreaterEq => lit ">=" | RLess => lit "<" | RLessEq => lit "<="
  | RTilde => lit "~" | RCaret => lit "^" | RWildcard => []
  end.
Definition show_comp (c : rcomp) : str :=
  let star := match r_op c with RWildcard => lit ".*" | _ => [] end in
  show_op (r_op c) ++ dec (r_major c) ++
  match r_minor c with
  | None => star
  | Some minor =>
      dot ++ dec minor ++
      match r_patch c with
      | None => star
      | Some patch => dot ++ dec patch ++ match r_pre c with [] => [] | l => lit "-" ++ join dot l end
      end
  end.
Definition show_req (r : list rcomp) : str :=
  match r with [] => lit "*" | _ => join (lit ", ") (map show_comp r) end.

(** semver's [matches_exact] (external). *)
Definition same_number (x : option N) (n : N) : bool := match x with Some m => n =? m | None => true end.
Definition exact (c : rcomp) (v : tversion) : bool :=
  (t_major v =? r_major c) && same_number (r_minor c) (t_minor v) && same_number (r_patch c) (t_patch v)
  && (if list_eq_dec str_dec (t_pre v) (r_pre c) then true else false).

(** semver's [matches_greater] and [matches_less] (external): [number] and [pre] compare. *)
Definition beyond (number : N -> N -> bool) (pre : comparison -> bool) (c : rcomp) (v : tversion) : bool :=
  if negb (t_major v =? r_major c) then number (t_major v) (r_major c)
  else match r_minor c with
  | None => false
  | Some minor =>
      if negb (t_minor v =? minor) then number (t_minor v) minor
      else match r_patch c with
      | None => false
      | Some patch =>
          if negb (t_patch v =? patch) then number (t_patch v) patch
          else pre (tpre_cmp (t_pre v) (r_pre c))
      end
  end.
Definition greater : rcomp -> tversion -> bool :=
  beyond (fun a b => b <? a) (fun x => match x with Gt => true | _ => false end).
Definition less : rcomp -> tversion -> bool :=
  beyond (fun a b => a <? b) (fun x => match x with Lt => true | _ => false end).

(** semver's [matches_tilde] (external). *)
Definition tilde (c : rcomp) (v : tversion) : bool :=
  (t_major v =? r_major c) && same_number (r_minor c) (t_minor v)
  && match r_patch c with
     | Some patch => if negb (t_patch v =? patch) then patch <? t_patch v else geb (tpre_cmp (t_pre v) (r_pre c))
     | None => geb (tpre_cmp (t_pre v) (r_pre c))
     end.

(** semver's [matches_impl] (external). *)
Definition comp_matches (c : rcomp) (v : tversion) : bool :=
  match r_op c with
  | RExact | RWildcard => exact c v
  | RGreater => greater c v
  | RGreaterEq => exact c v || greater c v
  | RLess => less c v
  | RLessEq => exact c v || less c v
  | RTilde => tilde c v
  | RCaret => caret (mkc Caret (r_major c) (r_minor c) (r_patch c) (r_pre c)) v
  end.

(** semver's [matches_req] (external). *)
Definition compatible_pre (c : rcomp) (v : tversion) : bool :=
  (r_major c =? t_major v)
  && match r_minor c with Some m => m =? t_minor v | None => false end
  && match r_patch c with Some p => p =? t_patch v | None => false end
  && match r_pre c with [] => false | _ => true end.
Definition req_admits (r : list rcomp) (v : tversion) : bool :=
  forallb (fun c => comp_matches c v) r
  && match t_pre v with [] => true | _ => existsb (fun c => compatible_pre c v) r end.

(** cargo_metadata's [DependencyKind], [Dependency] and [Package] (external), as far as the tests
    look at them (test-fuzz/tests/integration/versions.rs:10-30).  The name of a dependency is the
    name of the package, also if it is renamed. *)
Inductive dep_kind := DNormal | DDevelopment | DBuild.
Record dependency := mkd { d_name : str; d_req : list rcomp; d_kind : dep_kind }.
Record package := mkpk { k_name : str; k_version : tversion; k_deps : list dependency }.

(** test-fuzz/tests/integration/versions.rs:8-21 [versions_are_equal]; [cur] is
    [CARGO_PKG_VERSION].  [false] is a failed assertion. *)
Definition versions_are_equal (cur : str) (ps : list package) : bool :=
  forallb (fun p => str_eqb (k_name p) (lit "serde_combinators") || str_eqb cur (show (k_version p))) ps.

(** test-fuzz/tests/integration/versions.rs:23-50 [versions_are_exact_and_match]; text that is no
    version is a panic. *)
Definition development (k : dep_kind) : bool := match k with DDevelopment => true | _ => false end.
Definition checked (d : dependency) : bool := starts_with (lit "test-fuzz") (d_name d) && negb (development (d_kind d)).
Definition dep_ok (cur : str) (d : dependency) : outcome bool :=
  if checked d then
    if starts_with (lit "=") (show_req (d_req d)) then
      match parse cur with Some v => Ret (req_admits (d_req d) v) | None => Panic end
    else Ret false
  else Ret true.
Fixpoint first_failure {A} (f : A -> outcome bool) (l : list A) : outcome bool :=
  match l with
  | [] => Ret true
  | x :: l' => bind (f x) (fun b => if b then first_failure f l' else Ret false)
  end.
Definition versions_are_exact_and_match (cur : str) (ps : list package) : outcome bool :=
  first_failure (fun p => first_failure (dep_ok cur) (k_deps p)) ps.
