(** Names in the generated code: what the types and variables of a signature mean where the
    macro repeats them.  All names the macro writes have the span of the call site, so nothing
    keeps them apart from those of the user. *)
From Coq Require Import List Ascii String Bool Arith NArith Lia.
From Verif Require Import Base Decimal Syntax SelfTy MacroArgs MacroMod.
Import ListNotations.
Local Open Scope nat_scope.

(** ** Types *)

(** What a path can mean: a module, a type or trait, a generic parameter, something defined by
    the macro, a path that starts at the external crates. *)
Inductive entity := EMod (m : list str) | EType (n : nat) | EParam (x : str) | EGen (x : str) | EExtern.

(** The types and modules of a program: what a name means in a module, by a definition, an
    import, or because it is known everywhere. *)
Definition program := list str -> str -> option entity.

Definition is_in (x : str) (l : list str) : bool := existsb (str_eqb x) l.

(** Following a path from module [cur] (Rust reference, "Paths"): the entity reached, and the
    segments after it. *)
Fixpoint walk (p : program) (cur : list str) (segs : list str) : option (entity * list str) :=
  match segs with
  | [] => None
  | x :: rest =>
      if str_eqb x (lit "super") then walk p (removelast cur) rest
      else match p cur x with
           | Some (EMod m) => match rest with [] => Some (EMod m, []) | _ => walk p m rest end
           | Some e => Some (e, rest)
           | None => None
           end
  end.

(** The meaning of a path in module [cur], in a block that defines the types [block], inside
    an item with the generic parameters [ps].  Simplification: the attributed function is no
    item of a function body. *)
Definition resolve (p : program) (cur : list str) (block ps : list str) (lead : bool) (segs : list str) : option (entity * list str) :=
  if lead then Some (EExtern, segs)
  else match segs with
  | [] => None
  | x :: rest =>
      if str_eqb x (lit "crate") then walk p [] rest
      else if str_eqb x (lit "self") then walk p cur rest
      else if is_in x block then Some (EGen x, rest)
      else if is_in x ps then Some (EParam x, rest)
      else walk p cur segs
  end.

(** macro/src/lib.rs:478-492, 657-708: the types and traits the generated module defines. *)
Definition module_types (only_generic_args : bool) : list str :=
  if only_generic_args then [lit "Args"] else [lit "Args"; lit "UsingReader"; lit "HasRetTy"].

(** macro/src/lib.rs:788-802: the module [m ++ [g]] contains [use super::*] and these
    definitions, which take precedence. *)
Definition expanded (p : program) (m : list str) (g : str) : Prop :=
  forall x, p (m ++ [g]) x = if is_in x (module_types false) then Some (EGen x) else p m x.

(** Where the types of a signature are repeated: as the types of fields and of the result
    (macro/src/lib.rs:485-489, 703-705), in the expressions that generate values
    (446-453; runtime/src/lib.rs:68-92 [auto_impl!] defines types there), and, those of the
    options, in the type of the result that is shown (571-573, 634-655). *)
Inductive position := PosField | PosAuto | PosRet.
Definition block_types (q : position) : list str :=
  match q with PosField => [] | PosAuto => [lit "AutoFallback"; lit "Auto"] | PosRet => [lit "Ret"] end.

(** The paths in a type. *)
Definition seg_names (l : list seg) : list str := map fst l.
Fixpoint paths (t : rty) : list (bool * list str) :=
  let fix args (a : pargs rty) : list (bool * list str) :=
    match a with
    | ANone => []
    | AAngle _ l => List.concat (map (fun g => match g with GType t | GAssoc _ t => paths t | _ => [] end) l)
    | AParen ins out => List.concat (map paths ins) ++ match out with Some t => paths t | None => [] end
    end in
  let segs (l : list seg) := List.concat (map (fun s => args (snd s)) l) in
  match t with
  | RPath None lead l => (lead, seg_names l) :: segs l
  | RPath (Some (q, n)) lead l => paths q ++ (if n =? 0 then [] else [(lead, seg_names (firstn n l))]) ++ segs l
  | RRef _ _ t | RPtr _ t | RSlice t | RArray t _ | RParen t => paths t
  | RTuple ts => List.concat (map paths ts)
  | RFn ins out => List.concat (map paths ins) ++ match out with Some t => paths t | None => [] end
  | RBounds _ bs => List.concat (map (fun b => (fst b, seg_names (snd b)) :: segs (snd b)) bs)
  | ROther _ => []
  end.

(** ** Generic parameters *)

Definition param_name (p : gparam) : str := match p with PLifetime s | PType s | PConst s => s end.

(** syn [TypeGenerics], used to declare the parameters of [Args] (macro/src/lib.rs:487, 664,
    679): names only, so what is declared is a lifetime or a type. *)
Definition declared (p : gparam) : gparam :=
  match p with PLifetime s => PLifetime s | PType s => PType s | PConst s => PType s end.
Definition args_params (ps : list gparam) : list gparam := map declared ps.

(** macro/src/lib.rs:676-677: the parameters in scope in [read_args], a method of
    [impl<R: std::io::Read> UsingReader<R>]. *)
Definition reader_params (ps : list gparam) : list gparam := PType (lit "R") :: ps.

(** macro/src/lib.rs:507-509, 321: the arguments given to [write_args], whose parameters are
    those of the impl and of the function. *)
Definition write_args_args (ps : list gparam) : list str :=
  List.concat (map (fun p => match p with PType s => [s] | _ => [] end) ps).

(** ** Variables *)

(** macro/src/lib.rs:494-530: the variables in scope where the arguments are recorded: two
    arrays of type names, and the parameters.  The value of an array is opaque. *)
Definition array_type (n : nat) : ty := TOther (RArray (RRef (Some (lit "'static")) false (rname "str")) [Tk (dec (N.of_nat n))]).
Definition body_vars (impl_types fn_types : nat) (vars : str -> option (ty * val)) : str -> option (ty * val) :=
  fun x => if str_eqb x (lit "generic_args") then Some (array_type fn_types, VOther 0)
           else if str_eqb x (lit "impl_generic_args") then Some (array_type impl_types, VOther 1)
           else vars x.
