(** The part of Rust's syntax the macro works on (the syn crate, external): tokens,
    types and paths. *)
From Coq Require Import List Ascii String Bool Arith Lia.
From Verif Require Import Base.
Import ListNotations.
Local Open Scope nat_scope.

(** A token tree (proc_macro2 [TokenTree], external): a word, a lifetime or a single
    punctuation character; or a delimited group.  Angle brackets are not groups.
    Simplification: a lifetime is one token; spacing and spans are left out. *)
Inductive tok := Tk (s : str) | Grp (delim : ascii) (l : list tok).

Definition tk (s : string) : tok := Tk (lit s).
Definition colon2 : list tok := [tk ":"; tk ":"].

(** Arguments of a path segment (syn [PathArguments]); [colon] says whether they are
    preceded by [::].  Simplification: constraints [T: Bound] and associated constants
    inside angle brackets are left out. *)
Inductive garg (T : Type) := GLifetime (s : str) | GType (t : T) | GConst (l : list tok) | GAssoc (id : str) (t : T).
Inductive pargs (T : Type) := ANone | AAngle (colon : bool) (l : list (garg T)) | AParen (ins : list T) (out : option T).
Arguments GLifetime {T}. Arguments GType {T}. Arguments GConst {T}. Arguments GAssoc {T}.
Arguments ANone {T}. Arguments AAngle {T}. Arguments AParen {T}.

(** Types (syn [Type]).  Paths carry the self type and its position, whether there is a
    leading [::], and the segments.  [RBounds] is [dyn ...] or [impl ...]; [ROther] is
    anything without types inside ([_], [!], a macro).
    Simplifications: attributes and [for<'a>] are left out, the bounds of [RBounds] are
    paths, the length of an array is a list of tokens. *)
Inductive rty :=
  | RPath (qself : option (rty * nat)) (lead : bool) (segs : list (str * pargs rty))
  | RRef (lt : option str) (mut : bool) (t : rty)
  | RPtr (mut : bool) (t : rty)
  | RSlice (t : rty)
  | RArray (t : rty) (len : list tok)
  | RTuple (ts : list rty)
  | RParen (t : rty)
  | RFn (ins : list rty) (out : option rty)
  | RBounds (kw : str) (bounds : list (bool * list (str * pargs rty)))
  | ROther (l : list tok).

Notation seg := (str * pargs rty)%type.
(** A path: leading [::], segments. *)
Notation rpath := (bool * list seg)%type.

(** ** Immediate parts *)

Definition gchildren (a : garg rty) : list rty :=
  match a with GType t | GAssoc _ t => [t] | _ => [] end.
Definition ochildren (o : option rty) : list rty := match o with Some t => [t] | None => [] end.
Definition achildren (a : pargs rty) : list rty :=
  match a with
  | ANone => []
  | AAngle _ l => List.concat (map gchildren l)
  | AParen ins out => ins ++ ochildren out
  end.
Definition schildren (l : list seg) : list rty := List.concat (map (fun s => achildren (snd s)) l).

Definition children (t : rty) : list rty :=
  match t with
  | RPath q _ segs => match q with Some (t, _) => [t] | None => [] end ++ schildren segs
  | RRef _ _ t | RPtr _ t | RSlice t | RArray t _ | RParen t => [t]
  | RTuple ts => ts
  | RFn ins out => ins ++ ochildren out
  | RBounds _ bs => List.concat (map (fun b => schildren (snd b)) bs)
  | ROther _ => []
  end.

(** Applying a function to every immediate part: what the default methods of syn's
    [VisitMut] do. *)
Definition gmap (f : rty -> rty) (a : garg rty) : garg rty :=
  match a with GType t => GType (f t) | GAssoc id t => GAssoc id (f t) | GLifetime s => GLifetime s | GConst l => GConst l end.
Definition amap (f : rty -> rty) (a : pargs rty) : pargs rty :=
  match a with
  | ANone => ANone
  | AAngle c l => AAngle c (map (gmap f) l)
  | AParen ins out => AParen (map f ins) (option_map f out)
  end.
Definition smap (f : rty -> rty) (l : list seg) : list seg := map (fun s => (fst s, amap f (snd s))) l.

Definition tmap (f : rty -> rty) (t : rty) : rty :=
  match t with
  | RPath q lead segs => RPath (option_map (fun p => (f (fst p), snd p)) q) lead (smap f segs)
  | RRef lt m t => RRef lt m (f t)
  | RPtr m t => RPtr m (f t)
  | RSlice t => RSlice (f t)
  | RArray t n => RArray (f t) n
  | RTuple ts => RTuple (map f ts)
  | RParen t => RParen (f t)
  | RFn ins out => RFn (map f ins) (option_map f out)
  | RBounds kw bs => RBounds kw (map (fun b => (fst b, smap f (snd b))) bs)
  | ROther l => ROther l
  end.

(** Induction. *)
Section Ind.
  Variable P : rty -> Prop.
  Hypothesis step : forall t, Forall P (children t) -> P t.

  Lemma rty_ind' : forall t, P t.
  Proof.
    fix IH 1. intros t.
    assert (A : forall a : pargs rty, Forall P (achildren a)).
    { intros [|c l|ins out]; cbn [achildren]; [constructor| |].
      - induction l as [|g l IHl]; [constructor|]. cbn [map List.concat]. apply Forall_app. split; [|exact IHl].
        destruct g; cbn [gchildren]; repeat constructor; apply IH.
      - apply Forall_app. split.
        + induction ins; constructor; [apply IH|assumption].
        + destruct out; repeat constructor. apply IH. }
    assert (S0 : forall l : list seg, Forall P (schildren l)).
    { intros l. induction l as [|[s a] l IHl]; [constructor|]. cbn [schildren map List.concat]. apply Forall_app. split; [apply A|exact IHl]. }
    apply step. destruct t; cbn [children]; try (constructor; [apply IH|constructor]).
    - apply Forall_app. split; [destruct qself as [[q n]|]; repeat constructor; apply IH|apply S0].
    - induction ts; constructor; [apply IH|assumption].
    - apply Forall_app. split.
      + induction ins; constructor; [apply IH|assumption].
      + destruct out; repeat constructor. apply IH.
    - induction bounds as [|[b l] bounds IHb]; [constructor|]. cbn [map List.concat]. apply Forall_app. split; [apply S0|exact IHb].
    - constructor.
  Qed.
End Ind.

Lemma map_concat {A B} (f : A -> B) l : map f (List.concat l) = List.concat (map (map f) l).
Proof. induction l as [|a l IH]; [reflexivity|]. cbn. now rewrite map_app, IH. Qed.

Lemma achildren_map f a : achildren (amap f a) = map f (achildren a).
Proof.
  destruct a as [|c l|ins out]; cbn [amap achildren]; [reflexivity| |].
  - rewrite map_map, map_concat, map_map. f_equal. apply map_ext. intros []; reflexivity.
  - rewrite map_app. f_equal. destruct out; reflexivity.
Qed.
Lemma schildren_map f l : schildren (smap f l) = map f (schildren l).
Proof.
  unfold schildren, smap. rewrite map_map, map_concat, map_map. f_equal. apply map_ext. intros [s a]. apply achildren_map.
Qed.
Lemma children_map f t : children (tmap f t) = map f (children t).
Proof.
  destruct t; cbn [tmap children map]; try reflexivity.
  - rewrite map_app, schildren_map. f_equal. destruct qself as [[q n]|]; reflexivity.
  - rewrite map_app. f_equal. destruct out; reflexivity.
  - rewrite map_map, map_concat, map_map. f_equal. apply map_ext. intros [b l]. apply schildren_map.
Qed.

Lemma map_ext_F {A B} (f g : A -> B) l : Forall (fun a => f a = g a) l -> map f l = map g l.
Proof. induction 1; cbn; congruence. Qed.

Lemma amap_ext f g a : Forall (fun t => f t = g t) (achildren a) -> amap f a = amap g a.
Proof.
  destruct a as [|c l|ins out]; cbn [achildren amap]; intros F; [reflexivity| |].
  - f_equal. induction l as [|x l IH]; [reflexivity|]. cbn [map List.concat] in *. apply Forall_app in F as [F1 F2].
    f_equal; [|now apply IH]. destruct x; cbn [gchildren gmap] in *; try reflexivity; inversion F1; congruence.
  - apply Forall_app in F as [F1 F2]. f_equal; [now apply map_ext_F|]. destruct out; [|reflexivity]. inversion F2; cbn; congruence.
Qed.
Lemma smap_ext f g l : Forall (fun t => f t = g t) (schildren l) -> smap f l = smap g l.
Proof.
  induction l as [|[s a] l IH]; intros F; [reflexivity|]. cbn [schildren map List.concat snd] in F. apply Forall_app in F as [F1 F2].
  cbn [smap map fst snd]. f_equal; [f_equal; now apply amap_ext|now apply IH].
Qed.
Lemma tmap_ext f g t : Forall (fun t => f t = g t) (children t) -> tmap f t = tmap g t.
Proof.
  destruct t; cbn [children tmap]; intros F; try (inversion F; congruence); try reflexivity.
  - apply Forall_app in F as [F1 F2]. f_equal; [|now apply smap_ext]. destruct qself as [[q n]|]; [|reflexivity]. inversion F1; cbn; congruence.
  - f_equal. now apply map_ext_F.
  - apply Forall_app in F as [F1 F2]. f_equal; [now apply map_ext_F|]. destruct out; [|reflexivity]. inversion F2; cbn; congruence.
  - f_equal. induction bounds as [|[b l] bs IH]; [reflexivity|]. cbn [map List.concat fst snd] in *. apply Forall_app in F as [F1 F2].
    f_equal; [f_equal; now apply smap_ext|now apply IH].
Qed.
Lemma tmap_id t : tmap (fun t => t) t = t.
Proof.
  assert (A : forall a, amap (fun t => t) a = a).
  { intros [|c l|ins out]; cbn; [reflexivity| |]; f_equal; try apply map_id.
    - rewrite <- (map_id l) at 2. apply map_ext. intros []; reflexivity.
    - now destruct out. }
  assert (S0 : forall l, smap (fun t => t) l = l).
  { intros l. unfold smap. rewrite <- (map_id l) at 2. apply map_ext. intros [s a]. cbn. now rewrite A. }
  destruct t; cbn [tmap]; try reflexivity.
  - rewrite S0. f_equal. destruct qself as [[q n]|]; reflexivity.
  - now rewrite map_id.
  - rewrite map_id. now destruct out.
  - f_equal. rewrite <- (map_id bounds) at 2. apply map_ext. intros [b l]. cbn [fst snd]. now rewrite S0.
Qed.

(** ** Printing ([ToTokens] of syn, external) *)

Fixpoint sep (s : list tok) (l : list (list tok)) : list tok :=
  match l with
  | [] => []
  | [a] => a
  | a :: l => a ++ s ++ sep s l
  end.
Definition comma : list tok := [tk ","].

Definition is_lifetime {T} (a : garg T) : bool := match a with GLifetime _ => true | _ => false end.

(** Lifetimes come first, whatever their place. *)
Definition lifetimes_first (l : list (bool * list tok)) : list (list tok) :=
  map snd (filter fst l) ++ map snd (filter (fun a => negb (fst a)) l).

Section Print.
  Variable p : rty -> list tok.
  Definition gtoks (a : garg rty) : list tok :=
    match a with
    | GLifetime s => [Tk s]
    | GType t => p t
    | GConst l => l
    | GAssoc id t => Tk id :: tk "=" :: p t
    end.
  Definition otoks (o : option rty) : list tok := match o with Some t => tk "-" :: tk ">" :: p t | None => [] end.
  Definition atoks (a : pargs rty) : list tok :=
    match a with
    | ANone => []
    | AAngle c l => (if c then colon2 else []) ++ tk "<" ::
        sep comma (lifetimes_first (map (fun a => (is_lifetime a, gtoks a)) l)) ++ [tk ">"]
    | AParen ins out => Grp "(" (sep comma (map p ins)) :: otoks out
    end.
  Definition stoks (l : list seg) : list (list tok) := map (fun s => Tk (fst s) :: atoks (snd s)) l.
  Definition pathtoks (lead : bool) (l : list seg) : list tok := (if lead then colon2 else []) ++ sep colon2 (stoks l).
End Print.

Definition mut_toks (m : bool) : list tok := if m then [tk "mut"] else [].

Fixpoint toks (t : rty) : list tok :=
  match t with
  | RPath None lead segs => pathtoks toks lead segs
  | RPath (Some (q, n)) lead segs =>
      let l := stoks toks segs in
      tk "<" :: toks q ++ (if n =? 0 then [] else tk "as" :: (if lead then colon2 else []) ++ sep colon2 (firstn n l))
      ++ tk ">" :: colon2 ++ sep colon2 (skipn n l)
  | RRef lt m t => tk "&" :: match lt with Some s => [Tk s] | None => [] end ++ mut_toks m ++ toks t
  | RPtr m t => tk "*" :: (if m then tk "mut" else tk "const") :: toks t
  | RSlice t => [Grp "[" (toks t)]
  | RArray t n => [Grp "[" (toks t ++ tk ";" :: n)]
  | RTuple ts => [Grp "(" (sep comma (map toks ts) ++ match ts with [_] => comma | _ => [] end)]
  | RParen t => [Grp "(" (toks t)]
  | RFn ins out => tk "fn" :: Grp "(" (sep comma (map toks ins)) :: otoks toks out
  | RBounds kw bs => Tk kw :: sep [tk "+"] (map (fun b => pathtoks toks (fst b) (snd b)) bs)
  | ROther l => l
  end.

(** A path type without arguments. *)
Definition rname (s : string) : rty := RPath None false [(lit s, ANone)].
(** A path type with arguments. *)
Definition rapp (s : string) (l : list rty) : rty := RPath None false [(lit s, AAngle false (map GType l))].

Example toks_example :
  toks (RRef (Some (lit "'a")) true (RPath (Some (rname "T", 1)) false
          [(lit "Tr", AAngle false [GType (rname "u8"); GLifetime (lit "'b")]); (lit "Out", ANone)]))
  = [tk "&"; tk "'a"; tk "mut"; tk "<"; tk "T"; tk "as"; tk "Tr"; tk "<"; tk "'b"; tk ","; tk "u8"; tk ">"; tk ">"; tk ":"; tk ":"; tk "Out"].
Proof. reflexivity. Qed.

(** ** Equality of tokens *)

Fixpoint tok_eqb (a b : tok) : bool :=
  match a, b with
  | Tk s, Tk s' => str_eqb s s'
  | Grp d l, Grp d' l' => (if ascii_dec d d' then true else false) &&
      (fix go (l l' : list tok) : bool :=
         match l, l' with
         | [], [] => true
         | a :: l, b :: l' => tok_eqb a b && go l l'
         | _, _ => false
         end) l l'
  | _, _ => false
  end.
Fixpoint toks_eqb (l l' : list tok) : bool :=
  match l, l' with
  | [], [] => true
  | a :: l, b :: l' => tok_eqb a b && toks_eqb l l'
  | _, _ => false
  end.

Lemma tok_eqb_spec : forall a b, tok_eqb a b = true <-> a = b.
Proof.
  fix IH 1. intros [s|d l] [s'|d' l']; cbn [tok_eqb]; try (split; discriminate).
  - unfold str_eqb. destruct (str_dec s s'); split; congruence.
  - rewrite andb_true_iff. destruct (ascii_dec d d') as [->|N]; [|split; [intros [H _]; discriminate|intros H; congruence]].
    change ((fix go (l l' : list tok) : bool := match l, l' with [], [] => true | a :: l, b :: l' => tok_eqb a b && go l l' | _, _ => false end) l l')
      with (toks_eqb l l').
    assert (H : forall l', toks_eqb l l' = true <-> l = l').
    { induction l as [|a l IHl]; intros [|b m]; cbn [toks_eqb]; try (split; [discriminate|congruence]); try tauto.
      rewrite andb_true_iff, IH, IHl. split; [intros [-> ->]; reflexivity|intros E; injection E; auto]. }
    rewrite H. split; [intros [_ ->]; reflexivity|intros E; injection E; auto].
Qed.
Lemma toks_eqb_spec : forall l l', toks_eqb l l' = true <-> l = l'.
Proof.
  induction l as [|a l IH]; intros [|b m]; cbn [toks_eqb]; try (split; [discriminate|congruence]); try tauto.
  rewrite andb_true_iff, IH, tok_eqb_spec. split; [intros [-> ->]; reflexivity|intros E; injection E; auto].
Qed.
Lemma toks_eqb_refl l : toks_eqb l l = true.
Proof. now apply toks_eqb_spec. Qed.

(** ** Visiting *)

Definition gany (f : rty -> bool) (a : garg rty) : bool := match a with GType t | GAssoc _ t => f t | _ => false end.
Definition oany (f : rty -> bool) (o : option rty) : bool := match o with Some t => f t | None => false end.
Definition aany (f : rty -> bool) (a : pargs rty) : bool :=
  match a with
  | ANone => false
  | AAngle _ l => existsb (gany f) l
  | AParen ins out => existsb f ins || oany f out
  end.
Definition sany (f : rty -> bool) (l : list seg) : bool := existsb (fun s => aany f (snd s)) l.

(** Does [f] hold of an immediate part? *)
Definition tany (f : rty -> bool) (t : rty) : bool :=
  match t with
  | RPath q _ segs => match q with Some (t, _) => f t | None => false end || sany f segs
  | RRef _ _ t | RPtr _ t | RSlice t | RArray t _ | RParen t => f t
  | RTuple ts => existsb f ts
  | RFn ins out => existsb f ins || oany f out
  | RBounds _ bs => existsb (fun b => sany f (snd b)) bs
  | ROther _ => false
  end.

Lemma existsb_concat {A} (f : A -> bool) l : existsb f (List.concat l) = existsb (existsb f) l.
Proof. induction l as [|a l IH]; [reflexivity|]. cbn. now rewrite existsb_app, IH. Qed.
Lemma existsb_map {A B} (f : B -> bool) (g : A -> B) l : existsb f (map g l) = existsb (fun a => f (g a)) l.
Proof. induction l as [|a l IH]; [reflexivity|]. cbn. now rewrite IH. Qed.
Lemma existsb_ext {A} (f g : A -> bool) l : (forall a, f a = g a) -> existsb f l = existsb g l.
Proof. intros E. induction l as [|a l IH]; [reflexivity|]. cbn. now rewrite E, IH. Qed.

Lemma aany_children f a : aany f a = existsb f (achildren a).
Proof.
  destruct a as [|c l|ins out]; cbn [aany achildren]; [reflexivity| |].
  - rewrite existsb_concat, existsb_map. apply existsb_ext. intros []; cbn; now rewrite ?orb_false_r.
  - rewrite existsb_app. f_equal. destruct out; cbn; now rewrite ?orb_false_r.
Qed.
Lemma sany_children f l : sany f l = existsb f (schildren l).
Proof.
  unfold sany, schildren. rewrite existsb_concat, existsb_map. apply existsb_ext. intros [s a]. apply aany_children.
Qed.
Lemma tany_children f t : tany f t = existsb f (children t).
Proof.
  destruct t; cbn [tany children existsb]; rewrite ?orb_false_r; try reflexivity.
  - rewrite existsb_app, sany_children. f_equal. destruct qself as [[q n]|]; cbn; now rewrite ?orb_false_r.
  - rewrite existsb_app. f_equal. destruct out; cbn; now rewrite ?orb_false_r.
  - rewrite existsb_concat, existsb_map. apply existsb_ext. intros [b l]. apply sany_children.
Qed.

(** ** Specification: parts and shape *)

(** [c] is [t] or occurs in it as a type. *)
Inductive part : rty -> rty -> Prop :=
  | part_refl t : part t t
  | part_child t c d : In c (children t) -> part c d -> part t d.

(** The same type up to its immediate parts. *)
Definition same_shape (t t' : rty) : Prop := tmap (fun _ => ROther []) t = tmap (fun _ => ROther []) t'.

Lemma same_shape_map f t : same_shape t (tmap f t).
Proof.
  unfold same_shape. assert (E : forall t f g, tmap f (tmap g t) = tmap (fun x => f (g x)) t).
  { clear. intros t f g.
    assert (A : forall a, amap f (amap g a) = amap (fun x => f (g x)) a).
    { intros [|c l|ins out]; cbn; [reflexivity| |]; rewrite map_map; f_equal.
      - apply map_ext. intros []; reflexivity.
      - now destruct out. }
    assert (S0 : forall l, smap f (smap g l) = smap (fun x => f (g x)) l).
    { intros l. unfold smap. rewrite map_map. apply map_ext. intros [s a]. cbn [fst snd]. now rewrite A. }
    destruct t; cbn [tmap]; rewrite ?map_map; try reflexivity.
    - rewrite S0. f_equal. destruct qself as [[q n]|]; reflexivity.
    - f_equal. now destruct out.
    - f_equal. apply map_ext. intros [b l]. cbn [fst snd]. now rewrite S0. }
  now rewrite E.
Qed.

Lemma part_trans a b c : part a b -> part b c -> part a c.
Proof. induction 1; intros H'; [exact H'|]. econstructor; eauto. Qed.

(** The immediate parts and the shape determine the type. *)
Lemma shape_children : forall t t', same_shape t t' -> children t = children t' -> t = t'.
Proof.
  assert (G : forall l l' r r', map (gmap (fun _ => ROther [])) l = map (gmap (fun _ => ROther [])) l' ->
     List.concat (map gchildren l) ++ r = List.concat (map gchildren l') ++ r' -> l = l' /\ r = r').
  { induction l as [|a l IH]; intros [|b l'] r r' E C; cbn [map] in E; try discriminate; [auto|].
    injection E as E1 E2. cbn [map List.concat] in C. rewrite <- !app_assoc in C.
    destruct a, b; cbn [gmap] in E1; try discriminate; cbn [gchildren app] in C.
    - injection E1 as ->. destruct (IH _ _ _ E2 C) as [-> ->]. auto.
    - injection C as -> C. destruct (IH _ _ _ E2 C) as [-> ->]. auto.
    - injection E1 as ->. destruct (IH _ _ _ E2 C) as [-> ->]. auto.
    - injection E1 as ->. injection C as -> C. destruct (IH _ _ _ E2 C) as [-> ->]. auto. }
  assert (L : forall (l l' r r' : list rty), map (fun _ => ROther []) l = map (fun _ => ROther []) l' -> l ++ r = l' ++ r' -> l = l' /\ r = r').
  { induction l as [|a l IH]; intros [|b l'] r r' E C; cbn [map] in E; try discriminate; [auto|].
    injection E as E. cbn [app] in C. injection C as -> C. destruct (IH _ _ _ E C) as [-> ->]. auto. }
  assert (O : forall o o' r r', option_map (fun _ : rty => ROther []) o = option_map (fun _ => ROther []) o' ->
     ochildren o ++ r = ochildren o' ++ r' -> o = o' /\ r = r').
  { intros [a|] [b|] r r' E C; cbn in E; try discriminate; cbn [ochildren app] in C; [injection C as -> ->|]; auto. }
  assert (A : forall a a' r r', amap (fun _ => ROther []) a = amap (fun _ => ROther []) a' ->
     achildren a ++ r = achildren a' ++ r' -> a = a' /\ r = r').
  { intros [|c l|ins out] [|c' l'|ins' out'] r r' E C; cbn [amap] in E; try discriminate; cbn [achildren] in C; [auto| |].
    - injection E as -> E. destruct (G _ _ _ _ E C) as [-> ->]. auto.
    - injection E as E1 E2. rewrite <- !app_assoc in C. destruct (L _ _ _ _ E1 C) as [-> C']. destruct (O _ _ _ _ E2 C') as [-> ->]. auto. }
  assert (S0 : forall l l' r r', smap (fun _ => ROther []) l = smap (fun _ => ROther []) l' ->
     schildren l ++ r = schildren l' ++ r' -> l = l' /\ r = r').
  { induction l as [|[s a] l IH]; intros [|[s' a'] l'] r r' E C; cbn [smap map] in E; try discriminate; [auto|].
    cbn [fst snd] in E. injection E as -> E1 E2. cbn [schildren map List.concat snd] in C. rewrite <- !app_assoc in C.
    destruct (A _ _ _ _ E1 C) as [-> C']. destruct (IH _ _ _ E2 C') as [-> ->]. auto. }
  intros t t' E C. unfold same_shape in E.
  assert (N : forall A (x y : list A), x = y -> x ++ [] = y ++ []) by (intros; now f_equal).
  destruct t, t'; cbn [tmap] in E; try discriminate; cbn [children] in C.
  - injection E as E1 -> E2. destruct qself as [[q n]|], qself0 as [[q' n']|]; cbn in E1; try discriminate.
    + injection E1 as ->. cbn [app] in C. injection C as -> C. apply N in C. destruct (S0 _ _ _ _ E2 C) as [-> _]. reflexivity.
    + cbn [app] in C. apply N in C. destruct (S0 _ _ _ _ E2 C) as [-> _]. reflexivity.
  - injection E as -> ->. injection C as ->. reflexivity.
  - injection E as ->. injection C as ->. reflexivity.
  - injection C as ->. reflexivity.
  - injection E as ->. injection C as ->. reflexivity.
  - now rewrite C.
  - injection C as ->. reflexivity.
  - injection E as E1 E2. destruct (L _ _ _ _ E1 C) as [-> C']. apply N in C'. destruct (O _ _ _ _ E2 C') as [-> _]. reflexivity.
  - injection E as -> E. f_equal.
    assert (B : forall (l l' : list rpath) r r',
      map (fun b => (fst b, smap (fun _ => ROther []) (snd b))) l = map (fun b => (fst b, smap (fun _ => ROther []) (snd b))) l' ->
      List.concat (map (fun b => schildren (snd b)) l) ++ r = List.concat (map (fun b => schildren (snd b)) l') ++ r' -> l = l' /\ r = r').
    { induction l as [|[b s] l IH]; intros [|[b' s'] l'] r r' E' C'; cbn [map fst snd] in E'; try discriminate; [auto|].
      injection E' as -> E1 E2. cbn [map List.concat snd] in C'. rewrite <- !app_assoc in C'.
      destruct (S0 _ _ _ _ E1 C') as [-> C'']. destruct (IH _ _ _ E2 C'') as [-> ->]. auto. }
    apply N in C. now destruct (B _ _ _ _ E C).
  - injection E as ->. reflexivity.
Qed.
