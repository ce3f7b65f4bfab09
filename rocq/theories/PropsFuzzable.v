(** C115: the project's sample targets crash exactly on the inputs its tests want found. *)
From Coq Require Import List Ascii String Bool Arith NArith ZArith Lia ZifyBool ZifyN ZifyNat.
From stdpp Require Import gmap.
From Verif Require Import Base Utf8 Env Dirs Opts Fs Write Harness PropsHarness Syntax SelfTy MacroArgs MacroMod EndToEnd PropsShown PropsFound Fuzzable.
From Verif Require Serde SerdeFacts Postcard PropsSerde PropsEndToEnd PropsMacroArgs.
Import ListNotations.
Local Open Scope nat_scope.

(** * Specification *)

(** The number a group of bytes stands for: seven bits of each, least significant first; the
    last byte, and only this one, is below 128. *)
Fixpoint number (l : bytes) : option N :=
  match l with
  | [] => None
  | [a] => if (byte a <? 128)%N then Some (byte a) else None
  | a :: l => if (byte a <? 128)%N then None else option_map (fun r => byte a - 128 + 128 * r)%N (number l)
  end.
(** [len] stands for [n], in at most [k] bytes. *)
Definition stands_for (k : nat) (n : N) (len : bytes) : Prop := number len = Some n /\ List.length len <= k.

(** * Proofs *)

Section Varint.
  Variable z : bool.
  Notation varint := (Postcard.varint z).

  Lemma varint_number (last : N) : (last < 128)%N -> forall k l n, 1 <= k -> stands_for k n l ->
    (n < 128 ^ N.of_nat (pred k) * (last + 1))%N -> forall rest b, varint k last (l ++ rest, b) = Serde.Ok n (rest, b).
  Proof.
    intros LB. induction k as [|k IH]; intros l n K (V & L) H rest b; [lia|]. destruct l as [|a l]; [discriminate V|].
    cbn [number] in V. cbn [pred] in H. cbn [Postcard.varint app]. unfold Serde.rbind at 1. cbn [Postcard.pop].
    destruct l as [|a' l].
    - destruct (byte a <? 128)%N eqn:E; [|discriminate V]. injection V as <-.
      destruct ((k =? 0) && (last <? byte a)%N) eqn:K0; [|reflexivity].
      assert (k = 0) as -> by lia. cbn [N.of_nat N.pow] in H. lia.
    - destruct (byte a <? 128)%N eqn:E; [discriminate V|]. destruct (number (a' :: l)) as [r|] eqn:R; [|discriminate V].
      injection V as <-. cbn [List.length] in L.
      assert (K1 : 1 <= k) by lia. unfold Serde.rbind. rewrite (IH (a' :: l) r K1).
      + reflexivity.
      + split; [exact R|cbn [List.length]; lia].
      + destruct k as [|k]; [lia|]. cbn [pred]. replace (N.of_nat (S k)) with (N.succ (N.of_nat k)) in H by lia.
        rewrite N.pow_succ_r' in H. change (match r with 0%N => 0%N | N.pos q => N.pos (128 * q) end) with (128 * r)%N in *. lia.
  Qed.

  (** At the end of the input a 0 may be read. *)
  Lemma varint_eof (last : N) : z = true -> (last < 128)%N -> forall k s n b, 1 <= k -> stands_for k n (s ++ [ascii_of_N 0]) ->
    (n < 128 ^ N.of_nat (pred k) * (last + 1))%N -> varint k last (s, b) = Serde.Ok n ([], b).
  Proof.
    intros Z LB. induction k as [|k IH]; intros s n b K (V & L) H; [lia|].
    cbn [pred] in H. cbn [Postcard.varint]. unfold Serde.rbind at 1. destruct s as [|a s]; cbn [app] in V, L.
    - cbn [Postcard.pop]. rewrite Z. injection V as <-. change (byte (ascii_of_N 0)) with 0%N. cbn [N.ltb N.compare].
      destruct ((k =? 0) && (last <? 0)%N) eqn:K0; [lia|reflexivity].
    - cbn [Postcard.pop]. remember (s ++ [ascii_of_N 0]) as l eqn:El. cbn [number] in V. destruct l as [|a' l]; [destruct s; discriminate El|].
      destruct (byte a <? 128)%N eqn:E; [discriminate V|]. destruct (number (a' :: l)) as [r|] eqn:R; [|discriminate V].
      injection V as <-. cbn [List.length] in L.
      assert (K1 : 1 <= k) by lia. unfold Serde.rbind. rewrite (IH s r b K1).
      + reflexivity.
      + rewrite <- El. split; [exact R|cbn [List.length]; lia].
      + destruct k as [|k]; [lia|]. cbn [pred]. replace (N.of_nat (S k)) with (N.succ (N.of_nat k)) in H by lia.
        rewrite N.pow_succ_r' in H. change (match r with 0%N => 0%N | N.pos q => N.pos (128 * q) end) with (128 * r)%N in *. lia.
  Qed.

  Lemma number_varint (last : N) : forall k s b n s' b', varint k last (s, b) = Serde.Ok n (s', b') ->
    b' = b /\ exists l, stands_for k n l /\ (s = l ++ s' \/ (z = true /\ s' = [] /\ s ++ [ascii_of_N 0] = l)).
  Proof.
    induction k as [|k IH]; intros s b n s' b' E; [discriminate E|]. cbn [Postcard.varint] in E. unfold Serde.rbind at 1 in E.
    destruct s as [|a s]; cbn [Postcard.pop] in E.
    - destruct z eqn:Z; [|discriminate E]. change (byte (ascii_of_N 0)) with 0%N in E. cbn [N.ltb N.compare] in E.
      assert (X : Serde.Ok 0%N (@nil ascii, b) = Serde.Ok n (s', b')).
      { destruct ((k =? 0) && (last <? 0)%N) eqn:K; [discriminate E|]. exact E. }
      injection X as <- <- <-. split; [reflexivity|]. exists [ascii_of_N 0]. split; [|right; auto]. split; [reflexivity|cbn; lia].
    - destruct (byte a <? 128)%N eqn:B.
      + destruct ((k =? 0) && (last <? byte a)%N); [discriminate E|]. injection E as <- <- <-. split; [reflexivity|].
        exists [a]. split; [|left; reflexivity]. split; [cbn [number]; now rewrite B|cbn; lia].
      + unfold Serde.rbind in E. destruct (varint k last (s, b)) as [r [s1 b1]| |] eqn:E1; try discriminate E.
        apply IH in E1 as (-> & l & (V & L) & Q). injection E as <- <- <-. split; [reflexivity|]. exists (a :: l).
        split.
        * split; [|cbn [List.length]; lia]. destruct l as [|a' l]; [discriminate V|]. cbn [number] in *. rewrite B, V. reflexivity.
        * destruct Q as [->|(Z & -> & <-)]; [left; reflexivity|right; auto].
  Qed.
End Varint.

(** What each sample expands to, as far as its harness is concerned. *)
Lemma qwerty_args draws rs : M.expand_args None None [] draws (f_inputs qwerty_target) = Ret rs ->
  rs = [{| M.m_attrs := 0; M.m_ident := lit "data"; M.m_label := lit "data"; M.m_type := ref (rname "str");
           M.m_mapped := (rname "String", M.EToOwned (M.EVar (lit "data")), M.EAsStr false (M.EField (lit "data"))) |}].
Proof. intros E. cbv in E. injection E as <-. reflexivity. Qed.

Lemma plain_args x t f draws rs : f_inputs f = [arg x t] -> (forall lt m t', t <> RRef lt m t') ->
  M.expand_args None None [] draws (f_inputs f) = Ret rs ->
  rs = [{| M.m_attrs := 0; M.m_ident := lit x; M.m_label := lit x; M.m_type := t; M.m_mapped := (t, M.EClone (M.EVar (lit x)), M.EField (lit x)) |}].
Proof.
  intros -> N E. unfold M.expand_args, arg in E. cbn [M.make_table bind M.map_args M.map_arg M.pat_idents fst snd M.finish] in E.
  destruct t; cbn in E; try (injection E as <-; reflexivity). exfalso. eapply N. reflexivity.
Qed.

Lemma qwerty_is s : (List.length s =? 6) && is_byte s 0 "q" && is_byte s 1 "w" && is_byte s 2 "e" && is_byte s 3 "r" && is_byte s 4 "t" && is_byte s 5 "y" = true
  <-> s = lit "qwerty".
Proof.
  split; [|intros ->; reflexivity]. intros H. do 6 (destruct s as [|? s]; [discriminate H|]). destruct s; [|discriminate H].
  unfold is_byte in H. cbn [List.length Nat.eqb nth_error andb] in H. rewrite !andb_true_iff, !Ascii.eqb_eq in H.
  destruct H as (((((-> & ->) & ->) & ->) & ->) & ->). reflexivity.
Qed.

Lemma take_split n s b x s' b' : Postcard.take false n (s, b) = Serde.Ok x (s', b') -> s = x ++ s' /\ N.of_nat (List.length x) = n /\ (n <= b)%N /\ b' = b.
Proof.
  unfold Postcard.take, Postcard.spend. destruct (n <=? b)%N eqn:Q; [|discriminate]. destruct (_ <? n)%N eqn:L; [discriminate|]. intros [= <- <- <-].
  rewrite firstn_skipn, firstn_length_le by lia. repeat split; lia.
Qed.

Lemma take_ok (x rest : bytes) (b : N) : (N.of_nat (List.length x) <= b)%N -> Postcard.take false (N.of_nat (List.length x)) (x ++ rest, b) = Serde.Ok x (rest, b).
Proof.
  intros H. unfold Postcard.take, Postcard.spend. destruct (_ <=? b)%N eqn:Q; [|lia]. rewrite app_length.
  destruct (_ <? _)%N eqn:L; [lia|]. rewrite Nnat.Nat2N.id. destruct (Postcard.firstn_len x rest) as [-> ->]. reflexivity.
Qed.

(** A string: its length, then its bytes. *)
Lemma dec_string z env f s b v s' b' :
  Serde.dec (Postcard.postcard z false) env (S f) Serde.TString (s, b) = Serde.Ok v (s', b') <->
  exists len x, v = Serde.VString x /\ stands_for 10 (N.of_nat (List.length x)) len /\ (N.of_nat (List.length x) < 2 ^ 64)%N /\
    ((s = len ++ x ++ s') \/ (z = true /\ s' = [] /\ x = [] /\ s ++ [ascii_of_N 0] = len)) /\ (N.of_nat (List.length x) <= b)%N /\ valid_utf8 x = true /\ b' = b.
Proof.
  cbn [Serde.dec Postcard.postcard Serde.d_uint Serde.d_block]. unfold Postcard.uvarint. unfold Serde.rbind at 1. split.
  - destruct (Postcard.varint z _ _ (s, b)) as [n [s1 b1]| |] eqn:E1; try discriminate. intros E.
    assert (F : (n < 2 ^ 64)%N).
    { apply (Postcard.varint_fits z) in E1; [|reflexivity]. rewrite Postcard.bits_eq in E1. exact E1. }
    apply number_varint in E1 as (-> & len & St & Q). unfold Serde.rbind in E.
    destruct (Postcard.take false n (s1, b)) as [x [s2 b2]| |] eqn:E2; try discriminate E. apply take_split in E2 as (-> & <- & Le & ->).
    destruct (valid_utf8 x) eqn:V; [|discriminate E]. injection E as <- <- <-. exists len, x. repeat split; auto; try apply St.
    destruct Q as [->|(Z & Q & Q')]; [left; reflexivity|right]. apply app_eq_nil in Q as [-> ->]. auto.
  - intros (len & x & -> & St & F & Q & Le & V & ->).
    assert (E1 : Postcard.varint z (Postcard.varint_max Serde.W64) (Postcard.last_max Serde.W64) (s, b) = Serde.Ok (N.of_nat (List.length x)) (x ++ s', b)).
    { destruct Q as [->|(Z & -> & -> & Q)].
      - apply varint_number; [reflexivity|cbn; lia|exact St|]. rewrite Postcard.bits_eq. exact F.
      - cbn [List.length] in *. rewrite app_nil_l. apply varint_eof; [exact Z|reflexivity|cbn; lia|now rewrite Q|]. rewrite Postcard.bits_eq. exact F. }
    rewrite E1. unfold Serde.rbind. rewrite take_ok by exact Le. rewrite V. reflexivity.
Qed.

(** One argument, no type parameters: the bytes are decoded as the argument. *)
Lemma decode_one z env fuel i r data :
  args_decode z env (S fuel) i [r] 0 data =
  match Serde.dec (Postcard.postcard z false) env fuel (i_shape i r) (data, Postcard.SLIDING_BUFFER_SIZE) with
  | Serde.Ok v _ => match i_from i r v with Some x => Decoded [x] | None => NotDecoded end
  | Serde.Fail => NotDecoded
  | Serde.Over => DecodePanic
  end.
Proof.
  unfold args_decode, Postcard.deserialize, args_shape. cbn [map repeat app Serde.dec Serde.rlist]. unfold Serde.rbind.
  destruct (Serde.dec _ _ _ _ _) as [v [s b]| |]; try reflexivity. unfold Serde.rret. cbn [fields_from]. destruct (i_from i r v); reflexivity.
Qed.

(** Types that are not structured need no stack. *)
Definition flat (t : Serde.ty) : Prop := match t with Serde.TBool | Serde.TString | Serde.TUInt _ => True | _ => False end.
Lemma flat_over z env f t s : flat t -> Serde.dec (Postcard.postcard z false) env (S f) t s <> Serde.Over.
Proof.
  intros F. destruct t; destruct F; cbn [Serde.dec]; unfold Serde.rbind at 1.
  - unfold Serde.d_bool. cbn [Serde.d_byte Postcard.postcard]. unfold Serde.rbind. destruct s as [[|a s] b]; cbn [Postcard.pop].
    + destruct z; [|discriminate]. discriminate.
    + destruct (byte a =? 0)%N; [discriminate|]. destruct (byte a =? 1)%N; discriminate.
  - cbn [Serde.d_uint Postcard.postcard]. pose proof (Postcard.varint_over z (Postcard.last_max w) (Postcard.varint_max w) s) as K. unfold Postcard.uvarint.
    destruct (Postcard.varint _ _ _ s) as [n s1| |]; [discriminate..|contradiction].
  - cbn [Serde.d_uint Serde.d_block Postcard.postcard]. pose proof (Postcard.varint_over z (Postcard.last_max Serde.W64) (Postcard.varint_max Serde.W64) s) as K. unfold Postcard.uvarint.
    destruct (Postcard.varint _ _ _ s) as [n s1| |]; [|discriminate|contradiction]. unfold Serde.rbind.
    pose proof (Postcard.take_over false n s1) as K1. destruct (Postcard.take _ _ s1) as [x s2| |]; [|discriminate|contradiction].
    destruct (valid_utf8 x); discriminate.
Qed.

(** A target with one such argument breaks exactly if the bytes are decoded to a value on
    which it panics. *)
Lemma breaks_one w z env fuel i r body (u : user (list M.val) unit) data :
  2 <= fuel -> flat (i_shape i r) -> PropsEndToEnd.harness_of w z env fuel i [r] 0 body u ->
  (forall v x, i_from i r v = Some x -> exists y, PropsEndToEnd.rebuilt w [r] [x] [y]) ->
  (breaks_it u data <->
   exists v st x y, Serde.dec (Postcard.postcard z false) env (pred fuel) (i_shape i r) (data, Postcard.SLIDING_BUFFER_SIZE) = Serde.Ok v st /\
     i_from i r v = Some x /\ PropsEndToEnd.rebuilt w [r] [x] [y] /\ body [y] = None).
Proof.
  intros Fu Fl (Hd & Ht) Rb. destruct fuel as [|[|fuel]]; [lia..|]. cbn [pred]. unfold breaks_it. rewrite Hd, decode_one.
  destruct (Serde.dec _ _ _ _ _) as [v st| |] eqn:D.
  - destruct (i_from i r v) as [x|] eqn:F.
    + split.
      * intros [K|(a & K & T)]; [discriminate K|]. injection K as <-. destruct (Rb v x F) as (y & Y).
        exists v, st, x, y. repeat split; auto. now rewrite <- (Ht _ _ Y).
      * intros (v' & st' & x' & y & E & F' & Y & T). assert (v' = v) as -> by congruence. assert (x' = x) as -> by congruence.
        right. exists [x]. split; [reflexivity|]. now rewrite (Ht _ _ Y).
    + split; [intros [K|(a & K & T)]; discriminate K|]. intros (v' & st' & x' & y & E & F' & Y & T).
      assert (v' = v) as -> by congruence. congruence.
  - split; [intros [K|(a & K & T)]; discriminate K|]. intros (v' & st' & x' & y & E & F' & Y & T). discriminate E.
  - destruct (flat_over z env fuel _ _ Fl D).
Qed.

Lemma verdicts (P : Prop) (u : user (list M.val) unit) ui o llvm parent nt data :
  unswitched (env_extend llvm (lookup_last parent)) -> (breaks_it u data <-> P) ->
  let verdict := snd (fuzzed u ui o llvm parent nt data) in (verdict = HAbort <-> P) /\ (verdict = HPass <-> ~ P).
Proof.
  intros Un B verdict. pose proof (C109_found _ _ u ui o llvm parent nt data Un) as (F1 & F2). fold verdict in F1, F2.
  split; [rewrite F1; exact B|rewrite F2, B; reflexivity].
Qed.

(** C115: the sample [qwerty] crashes, while fuzzed, exactly on the encodings of that string,
    whatever follows them. *)
Theorem C115_qwerty :
  forall (w : M.world) (z : bool) (env : nat -> Serde.ty) (fuel : nat) (code : str -> nat) (uncode : nat -> option str) (draws : list N) (rs : list M.mapped_arg)
         (u : user (list M.val) unit) (ui : bool) (o : opts) (llvm parent : list (bytes * bytes)) (nontrivial : bool) (data : bytes),
    M.expand_args None None [] draws (f_inputs qwerty_target) = Ret rs -> 2 <= fuel ->
    PropsEndToEnd.harness_of w z env fuel (sample_impls code uncode) rs 0 qwerty_body u ->
    unswitched (env_extend llvm (lookup_last parent)) ->
    let verdict := snd (fuzzed u ui o llvm parent nontrivial data) in
    let crashes := exists len more, stands_for 10 6 len /\ data = len ++ lit "qwerty" ++ more in
    (verdict = HAbort <-> crashes) /\ (verdict = HPass <-> ~ crashes).
Proof.
  intros w z env fuel code uncode draws rs u ui o llvm parent nt data E Fu H Un.
  apply qwerty_args in E. apply verdicts; [exact Un|].
  assert (Rb : forall s y, PropsEndToEnd.rebuilt w rs [M.VString s] [y] <-> y = M.VRef (M.VStr s)).
  { intros s y. subst rs. unfold PropsEndToEnd.rebuilt. split.
    - intros R. inversion R as [|? ? ? ? R1 _]; subst. cbn in R1. inversion R1 as [| | | | | | | | |? ? ? R2| | |]; subst.
      inversion R2 as [|? ? ? R3| | | | | | | | | | |]; subst. vm_compute in R3. congruence.
    - intros ->. constructor; [|constructor]. cbn. apply M.ev_as_str. apply (M.ev_field _ _ _ _ (rname "String")). reflexivity. }
  rewrite E in *. match type of H with PropsEndToEnd.harness_of _ _ _ _ ?i [?r] _ _ _ => pose proof (breaks_one w z env fuel i r qwerty_body u data Fu Logic.I H) as B end.
  rewrite B by (intros v x F; destruct v; try discriminate F; injection F as <-; eexists; now apply Rb). clear B.
  change (i_shape _ _) with Serde.TString. destruct fuel as [|[|fuel]]; [lia..|]. cbn [pred]. split.
  - intros (v & [s' b'] & x & y & D & F & Y & T). apply dec_string in D as (len & s & -> & St & Fi & Q & Le & V & ->).
    injection F as <-. apply Rb in Y. subst y. unfold qwerty_body in T. destruct (_ && _) eqn:K in T; [|discriminate T]. apply qwerty_is in K. subst s.
    destruct Q as [->|(_ & _ & Q & _)]; [|discriminate Q]. exists len, s'. split; [exact St|reflexivity].
  - intros (len & more & St & ->). exists (Serde.VString (lit "qwerty")), (more, Postcard.SLIDING_BUFFER_SIZE), (M.VString (lit "qwerty")), (M.VRef (M.VStr (lit "qwerty"))).
    split; [|split; [reflexivity|split; [now apply Rb|reflexivity]]].
    apply dec_string. exists len, (lit "qwerty"). split; [reflexivity|]. split; [exact St|]. split; [reflexivity|]. split; [now left|]. split; [discriminate|]. split; reflexivity.
Qed.
Print Assumptions C115_qwerty.

(** A boolean is one byte. *)
Lemma dec_bool z env f s b v st :
  Serde.dec (Postcard.postcard z false) env (S f) Serde.TBool (s, b) = Serde.Ok v st <->
  exists x, v = Serde.VBool x /\ ((exists s', s = ascii_of_N (if x then 1 else 0) :: s' /\ st = (s', b)) \/ (z = true /\ s = [] /\ x = false /\ st = ([], b))).
Proof.
  cbn [Serde.dec]. unfold Serde.rbind at 1. unfold Serde.d_bool. cbn [Serde.d_byte Postcard.postcard]. unfold Serde.rbind. split.
  - destruct s as [|a s]; cbn [Postcard.pop].
    + destruct z; [|discriminate]. cbn. intros [= <- <-]. exists false. split; [reflexivity|]. right. auto.
    + destruct (byte a =? 0)%N eqn:E0.
      * intros [= <- <-]. exists false. split; [reflexivity|]. left. exists s. split; [|reflexivity]. f_equal. apply N.eqb_eq in E0.
        unfold byte in E0. rewrite <- (ascii_N_embedding a). now rewrite E0.
      * destruct (byte a =? 1)%N eqn:E1; [|discriminate]. intros [= <- <-]. exists true. split; [reflexivity|]. left. exists s. split; [|reflexivity]. f_equal. apply N.eqb_eq in E1.
        unfold byte in E1. rewrite <- (ascii_N_embedding a). now rewrite E1.
  - intros (x & -> & [(s' & -> & ->)|(Z & -> & -> & ->)]); cbn [Postcard.pop]; [destruct x; reflexivity|]. rewrite Z. reflexivity.
Qed.

(** A number. *)
Lemma dec_u64 z env f s b v s' b' :
  Serde.dec (Postcard.postcard z false) env (S f) (Serde.TUInt Serde.W64) (s, b) = Serde.Ok v (s', b') <->
  exists len n, v = Serde.VUInt Serde.W64 n /\ stands_for 10 n len /\ (n < 2 ^ 64)%N /\ b' = b /\
    (s = len ++ s' \/ (z = true /\ s' = [] /\ s ++ [ascii_of_N 0] = len)).
Proof.
  cbn [Serde.dec Postcard.postcard Serde.d_uint]. unfold Postcard.uvarint. unfold Serde.rbind at 1. split.
  - destruct (Postcard.varint z _ _ (s, b)) as [n [s1 b1]| |] eqn:E1; try discriminate. intros [= <- <- <-].
    assert (F : (n < 2 ^ 64)%N).
    { apply (Postcard.varint_fits z) in E1; [|reflexivity]. rewrite Postcard.bits_eq in E1. exact E1. }
    apply number_varint in E1 as (-> & len & St & Q). exists len, n. auto.
  - intros (len & n & -> & St & F & -> & Q).
    assert (E1 : Postcard.varint z (Postcard.varint_max Serde.W64) (Postcard.last_max Serde.W64) (s, b) = Serde.Ok n (s', b)).
    { destruct Q as [->|(Z & -> & Q)].
      - apply varint_number; [reflexivity|cbn; lia|exact St|]. rewrite Postcard.bits_eq. exact F.
      - apply varint_eof; [exact Z|reflexivity|cbn; lia|now rewrite Q|]. rewrite Postcard.bits_eq. exact F. }
    rewrite E1. reflexivity.
Qed.

(** An argument that is passed as it was stored. *)
Definition plain (x t : string) : M.mapped_arg :=
  {| M.m_attrs := 0; M.m_ident := lit x; M.m_label := lit x; M.m_type := rname t; M.m_mapped := (rname t, M.EClone (M.EVar (lit x)), M.EField (lit x)) |}.

Lemma plain_rebuilt w x t v y : is_str (rname t) = false -> PropsEndToEnd.rebuilt w [plain x t] [v] [y] <-> y = v.
Proof.
  intros N. unfold PropsEndToEnd.rebuilt.
  assert (R : PropsMacroArgs.record [plain x t] [v] (lit x) = Some (rname t, v)).
  { unfold PropsMacroArgs.record. cbn. now rewrite str_eqb_same. }
  split.
  - intros H. inversion H as [|? ? ? ? R1 _]; subst.
    change (M.ev w (fun _ => None) (PropsMacroArgs.record [plain x t] [v]) (M.EField (lit x)) (M.sem (rname t)) y) in R1.
    remember (PropsMacroArgs.record [plain x t] [v]) as g. inversion R1 as [|? ? ? R3| | | | | | | | | | |]; subst. rewrite R in R3. congruence.
  - intros ->. constructor; [|constructor].
    change (M.ev w (fun _ => None) (PropsMacroArgs.record [plain x t] [v]) (M.EField (lit x)) (M.sem (rname t)) v). apply (M.ev_field _ _ _ _ (rname t)). exact R.
Qed.

Lemma plain_expanded x t f draws rs : f_inputs f = [arg x (rname t)] -> M.expand_args None None [] draws (f_inputs f) = Ret rs -> rs = [plain x t].
Proof. intros F E. apply (plain_args x (rname t)) in E; [exact E|exact F|discriminate]. Qed.

(** The implementations for such an argument. *)
Lemma bool_impls code uncode x t : kind_of (lit t) = SkBool ->
  i_shape (sample_impls code uncode) (plain x t) = Serde.TBool /\
  forall v, i_from (sample_impls code uncode) (plain x t) v = match v with Serde.VBool b => Some (of_bool b) | _ => None end.
Proof. intros K. cbn. unfold stored_name. cbn. rewrite K. auto. Qed.

Lemma breaks_bool w z env fuel code uncode x t body (u : user (list M.val) unit) data :
  kind_of (lit t) = SkBool -> is_str (rname t) = false -> 2 <= fuel ->
  PropsEndToEnd.harness_of w z env fuel (sample_impls code uncode) [plain x t] 0 body u ->
  (breaks_it u data <->
   exists b, body [of_bool b] = None /\ ((exists more, data = ascii_of_N (if b then 1 else 0) :: more) \/ (z = true /\ data = [] /\ b = false))).
Proof.
  intros K N Fu H. destruct (bool_impls code uncode x t K) as (Sh & Fr).
  rewrite (breaks_one w z env fuel (sample_impls code uncode) (plain x t) body u data Fu); [| |exact H|].
  - rewrite Sh. destruct fuel as [|[|fuel]]; [lia..|]. cbn [pred]. split.
    + intros (v & st & y & y' & D & F & R & B). apply plain_rebuilt in R; [|exact N]. subst y'. apply dec_bool in D as (b & -> & Q).
      rewrite Fr in F. injection F as <-. exists b. split; [exact B|]. destruct Q as [(s' & -> & _)|(Z & -> & -> & _)]; [left; eauto|right; auto].
    + intros (b & B & Q). destruct Q as [(more & ->)|(Z & -> & ->)].
      * exists (Serde.VBool b), (more, Postcard.SLIDING_BUFFER_SIZE), (of_bool b), (of_bool b). split; [|split; [apply Fr|split; [now apply plain_rebuilt|exact B]]].
        apply dec_bool. exists b. split; [reflexivity|]. left. eauto.
      * exists (Serde.VBool false), ([], Postcard.SLIDING_BUFFER_SIZE), (of_bool false), (of_bool false). split; [|split; [apply Fr|split; [now apply plain_rebuilt|exact B]]].
        apply dec_bool. exists false. split; [reflexivity|]. right. auto.
  - rewrite Sh. exact Logic.I.
  - intros v y F. exists y. now apply plain_rebuilt.
Qed.

(** C115: the sample [assert] (and [target_3] of the sample [parallel]) crashes exactly on
    inputs that begin with a 1. *)
Theorem C115_assert :
  forall (w : M.world) (z : bool) (env : nat -> Serde.ty) (fuel : nat) (code : str -> nat) (uncode : nat -> option str) (draws : list N) (rs : list M.mapped_arg)
         (u : user (list M.val) unit) (ui : bool) (o : opts) (llvm parent : list (bytes * bytes)) (nontrivial : bool) (data : bytes),
    M.expand_args None None [] draws (f_inputs assert_target) = Ret rs -> 2 <= fuel ->
    PropsEndToEnd.harness_of w z env fuel (sample_impls code uncode) rs 0 assert_body u ->
    unswitched (env_extend llvm (lookup_last parent)) ->
    let verdict := snd (fuzzed u ui o llvm parent nontrivial data) in
    let crashes := exists more, data = ascii_of_N 1 :: more in
    (verdict = HAbort <-> crashes) /\ (verdict = HPass <-> ~ crashes).
Proof.
  intros w z env fuel code uncode draws rs u ui o llvm parent nt data E Fu H Un.
  apply (plain_expanded "x" "bool") in E; [|reflexivity]. subst rs. apply verdicts; [exact Un|].
  rewrite (breaks_bool w z env fuel code uncode "x" "bool" assert_body u data eq_refl eq_refl Fu H). split.
  - intros ([|] & B & Q); [|discriminate B]. destruct Q as [Q|(_ & _ & Q)]; [exact Q|discriminate Q].
  - intros (more & ->). exists true. split; [reflexivity|]. left. eauto.
Qed.
Print Assumptions C115_assert.

(** C115: of the sample [calm_and_panicky], the first target never crashes; the second crashes on
    everything that is decoded, that is, on inputs that begin with a 0 or a 1 (and on the empty
    one, if the deserialiser reads zeros past the end), and on nothing else. *)
Theorem C115_calm_and_panicky :
  forall (w : M.world) (z : bool) (env : nat -> Serde.ty) (fuel : nat) (code : str -> nat) (uncode : nat -> option str) (draws : list N) (rc rp : list M.mapped_arg)
         (uc up : user (list M.val) unit) (ui : bool) (o : opts) (llvm parent : list (bytes * bytes)) (nontrivial : bool) (data : bytes),
    M.expand_args None None [] draws (f_inputs calm_target) = Ret rc -> M.expand_args None None [] draws (f_inputs panicky_target) = Ret rp -> 2 <= fuel ->
    PropsEndToEnd.harness_of w z env fuel (sample_impls code uncode) rc 0 calm_body uc ->
    PropsEndToEnd.harness_of w z env fuel (sample_impls code uncode) rp 0 panicky_body up ->
    unswitched (env_extend llvm (lookup_last parent)) ->
    snd (fuzzed uc ui o llvm parent nontrivial data) = HPass /\
    let verdict := snd (fuzzed up ui o llvm parent nontrivial data) in
    let crashes := (exists a more, data = a :: more /\ (a = ascii_of_N 0 \/ a = ascii_of_N 1)) \/ (z = true /\ data = []) in
    (verdict = HAbort <-> crashes) /\ (verdict = HPass <-> ~ crashes).
Proof.
  intros w z env fuel code uncode draws rc rp uc up ui o llvm parent nt data Ec Ep Fu Hc Hp Un.
  apply (plain_expanded "_calm" "Calm") in Ec; [|reflexivity]. apply (plain_expanded "_panicky" "Panicky") in Ep; [|reflexivity]. subst rc rp. split.
  - apply (verdicts False uc ui o llvm parent nt data Un); [|tauto].
    rewrite (breaks_bool w z env fuel code uncode "_calm" "Calm" calm_body uc data eq_refl eq_refl Fu Hc). split; [|tauto]. intros (b & B & _). discriminate B.
  - apply verdicts; [exact Un|].
    rewrite (breaks_bool w z env fuel code uncode "_panicky" "Panicky" panicky_body up data eq_refl eq_refl Fu Hp). split.
    + intros (b & _ & [(more & ->)|(Z & -> & _)]); [left|right; auto]. exists (ascii_of_N (if b then 1 else 0)), more. split; [reflexivity|]. destruct b; auto.
    + intros [(a & more & -> & [-> | ->])|(Z & ->)]; [exists false|exists true|exists false]; (split; [reflexivity|]); eauto.
Qed.
Print Assumptions C115_calm_and_panicky.

(** C115: the sample [cast] crashes only if built with the feature that adds checks of casts, and
    then exactly on encodings of numbers that do not fit into 32 bits. *)
Theorem C115_cast :
  forall (w : M.world) (z : bool) (env : nat -> Serde.ty) (fuel : nat) (code : str -> nat) (uncode : nat -> option str) (cf : config) (draws : list N)
         (f : func) (ins : list inserted) (md : module) (rs : list M.mapped_arg)
         (u : user (list M.val) unit) (ui : bool) (o : opts) (llvm parent : list (bytes * bytes)) (nontrivial : bool) (data : bytes),
    test_fuzz cf default_mopts draws cast_target = Ret (f, ins, md) ->
    M.expand_args None None [] draws (f_inputs cast_target) = Ret rs -> 2 <= fuel ->
    PropsEndToEnd.harness_of w z env fuel (sample_impls code uncode) rs 0 (cast_body f) u ->
    unswitched (env_extend llvm (lookup_last parent)) ->
    let verdict := snd (fuzzed u ui o llvm parent nontrivial data) in
    let crashes := cfg_cast_checks cf = true /\ exists len n, stands_for 10 n len /\ (2 ^ 32 <= n < 2 ^ 64)%N /\
                     ((exists more, data = len ++ more) \/ (z = true /\ data ++ [ascii_of_N 0] = len)) in
    (verdict = HAbort <-> crashes) /\ (verdict = HPass <-> ~ crashes).
Proof.
  intros w z env fuel code uncode cf draws f ins md rs u ui o llvm parent nt data X E Fu H Un.
  apply (plain_expanded "x" "u64") in E; [|reflexivity]. subst rs. apply verdicts; [exact Un|].
  assert (Bo : forall n, cast_body f [M.VOther n] = None <-> cfg_cast_checks cf = true /\ (2 ^ 32 <= N.of_nat n)%N).
  { intros n. destruct (2 ^ 32 <=? N.of_nat n)%N eqn:L.
    - assert ((2 ^ 32 <= N.of_nat n)%N) by lia. unfold cast_body. rewrite L. destruct cf as [cz [|]].
      + assert (A : f_attrs f = [cast_checks_attr]) by (destruct cz; cbv in X; injection X as <- _ _; reflexivity). rewrite A. cbn. tauto.
      + assert (A : f_attrs f = []) by (destruct cz; cbv in X; injection X as <- _ _; reflexivity). rewrite A. cbn. split; [discriminate|intros [K _]; discriminate K].
    - unfold cast_body. rewrite L, andb_false_r. split; [discriminate|]. lia. }
  clear X.
  rewrite (breaks_one w z env fuel (sample_impls code uncode) (plain "x" "u64") (cast_body f) u data Fu); [| |exact H|].
  - change (i_shape _ _) with (Serde.TUInt Serde.W64). destruct fuel as [|[|fuel]]; [lia..|]. cbn [pred]. split.
    + intros (v & [s' b'] & y & y' & D & F & R & B). apply plain_rebuilt in R; [|reflexivity]. subst y'. apply dec_u64 in D as (len & n & -> & St & Fi & -> & Q).
      injection F as <-. apply Bo in B as (C & L). rewrite Nnat.N2Nat.id in L. split; [exact C|]. exists len, n. split; [exact St|]. split; [lia|].
      destruct Q as [->|(Z & _ & Q)]; [left; eauto|right; auto].
    + intros (C & len & n & St & L & Q).
      assert (exists s', data = len ++ s' \/ (z = true /\ s' = [] /\ data ++ [ascii_of_N 0] = len)) as (s' & Q') by (destruct Q as [(more & ->)|(Z & Q)]; [exists more; auto|exists []; auto]).
      exists (Serde.VUInt Serde.W64 n), (s', Postcard.SLIDING_BUFFER_SIZE), (M.VOther (N.to_nat n)), (M.VOther (N.to_nat n)).
      split; [|split; [reflexivity|split; [now apply plain_rebuilt|]]].
      * apply dec_u64. exists len, n. repeat split; auto; try apply St; lia.
      * apply Bo. rewrite Nnat.N2Nat.id. split; [exact C|lia].
  - exact Logic.I.
  - intros v y F. exists y. now apply plain_rebuilt.
Qed.
Print Assumptions C115_cast.

(** An enumeration with one variant that holds a string. *)
Lemma dec_enum z env f s b v st :
  Serde.dec (Postcard.postcard z false) env (S (S f)) (Serde.TEnum [Serde.TString]) (s, b) = Serde.Ok v st <->
  exists d x s1, v = Serde.VEnum 0 (Serde.VString x) /\ stands_for 5 0 d /\ (s = d ++ s1 \/ (z = true /\ s1 = [] /\ s ++ [ascii_of_N 0] = d)) /\
    Serde.dec (Postcard.postcard z false) env (S f) Serde.TString (s1, b) = Serde.Ok (Serde.VString x) st.
Proof.
  remember (S f) as g eqn:G. cbn [Serde.dec Postcard.postcard Serde.d_uint]. unfold Postcard.uvarint. unfold Serde.rbind at 1. split.
  - destruct (Postcard.varint z _ _ (s, b)) as [n [s1 b1]| |] eqn:E1; try discriminate. apply number_varint in E1 as (-> & d & St & Q).
    destruct (nth_error [Serde.TString] (N.to_nat n)) as [t|] eqn:Nt; [|discriminate].
    assert (Hn : n = 0%N) by (destruct (N.to_nat n) as [|[|k]] eqn:K; [lia|discriminate Nt|discriminate Nt]). subst n.
    injection Nt as <-. unfold Serde.rbind. destruct (Serde.dec _ env g Serde.TString (s1, b)) as [v1 st1| |] eqn:D; try discriminate.
    intros [= <- <-]. subst g. destruct st1 as [s2 b2]. pose proof D as D'. apply dec_string in D' as (len & x & -> & _).
    exists d, x, s1. change (N.to_nat 0) with 0. auto.
  - intros (d & x & s1 & -> & St & Q & D).
    assert (E1 : Postcard.varint z (Postcard.varint_max Serde.W32) (Postcard.last_max Serde.W32) (s, b) = Serde.Ok 0%N (s1, b)).
    { destruct Q as [->|(Z & -> & Q)].
      - apply varint_number; [reflexivity|cbn; lia|exact St|reflexivity].
      - apply varint_eof; [exact Z|reflexivity|cbn; lia|now rewrite Q|reflexivity]. }
    rewrite E1. cbn [nth_error N.to_nat]. unfold Serde.rbind. change (N.to_nat 0) with 0. cbn [nth_error]. rewrite D. reflexivity.
Qed.

(** The arguments of [Struct::target]. *)
Definition self_arg (n : N) : M.mapped_arg :=
  {| M.m_attrs := 0; M.m_ident := anonymous n; M.m_label := lit "self"; M.m_type := ref (rname "Struct");
     M.m_mapped := (rname "Struct", M.EClone (M.EDeref (M.EVar (lit "self"))), M.ERef false (M.EField (anonymous n))) |}.
Definition x_arg : M.mapped_arg :=
  {| M.m_attrs := 0; M.m_ident := lit "x"; M.m_label := lit "x"; M.m_type := ref (rname "T");
     M.m_mapped := (rname "T", M.EClone (M.EDeref (M.EVar (lit "x"))), M.ERef false (M.EField (lit "x"))) |}.

Lemma generic_expanded draws rs :
  M.expand_args (Some (trait_of "Trait" "T")) (Some (rname "Struct")) [] draws (f_inputs generic_method) = Ret rs ->
  exists n, rs = [self_arg n; x_arg].
Proof.
  intros E. unfold M.expand_args in E. exists (fst (draw draws)). destruct draws as [|n draws].
  - cbn -[anonymous] in E. injection E as <-. reflexivity.
  - cbn -[anonymous] in E. injection E as <-. reflexivity.
Qed.

Lemma anonymous_x n : str_eqb (anonymous n) (lit "x") = false.
Proof. reflexivity. Qed.

Lemma generic_rebuilt w n a v ys : PropsEndToEnd.rebuilt w [self_arg n; x_arg] [a; v] ys <-> ys = [M.VRef a; M.VRef v].
Proof.
  assert (R1 : PropsMacroArgs.record [self_arg n; x_arg] [a; v] (anonymous n) = Some (rname "Struct", a)).
  { unfold PropsMacroArgs.record. cbn -[anonymous]. now rewrite str_eqb_same. }
  assert (R2 : PropsMacroArgs.record [self_arg n; x_arg] [a; v] (lit "x") = Some (rname "T", v)) by reflexivity.
  unfold PropsEndToEnd.rebuilt. remember (PropsMacroArgs.record [self_arg n; x_arg] [a; v]) as g. split.
  - intros H. inversion H as [|? y1 ? ? E1 H2]; subst. inversion H2 as [|? y2 ? ? E2 H3]; subst. inversion H3; subst.
    remember (PropsMacroArgs.record [self_arg n; x_arg] [a; v]) as g.
    change (M.ev w (fun _ => None) g (M.ERef false (M.EField (anonymous n))) (M.TRef false (M.sem (rname "Struct"))) y1) in E1.
    change (M.ev w (fun _ => None) g (M.ERef false (M.EField (lit "x"))) (M.TRef false (M.sem (rname "T"))) y2) in E2.
    inversion E1 as [| | |? ? ? ? E1'| | | | | | | | |]; subst y1. inversion E1' as [|? ? ? E1''| | | | | | | | | | |].
    inversion E2 as [| | |? ? ? ? E2'| | | | | | | | |]; subst y2. inversion E2' as [|? ? ? E2''| | | | | | | | | | |].
    change (g (lit "x") = Some (t2, v2)) in E2''. assert (v0 = a) by congruence. assert (v2 = v) by congruence. congruence.
  - intros ->. constructor; [|constructor; [|constructor]].
    + change (M.ev w (fun _ => None) g (M.ERef false (M.EField (anonymous n))) (M.TRef false (M.sem (rname "Struct"))) (M.VRef a)). constructor. constructor. exact R1.
    + change (M.ev w (fun _ => None) g (M.ERef false (M.EField (lit "x"))) (M.TRef false (M.sem (rname "T"))) (M.VRef v)). constructor. constructor. exact R2.
Qed.

Lemma generic_decode z env fuel code uncode n data :
  args_decode z env (S (S (S fuel))) (sample_impls code uncode) [self_arg n; x_arg] 1 data =
  match Serde.dec (Postcard.postcard z false) env (S (S fuel)) (Serde.TEnum [Serde.TString]) (data, Postcard.SLIDING_BUFFER_SIZE) with
  | Serde.Ok (Serde.VEnum 0 (Serde.VString s)) _ => Decoded [M.VOther 0; M.VOther (code s)]
  | Serde.Ok _ _ | Serde.Fail => NotDecoded
  | Serde.Over => DecodePanic
  end.
Proof.
  remember (S (S fuel)) as g eqn:G.
  unfold args_decode, Postcard.deserialize, args_shape. cbn [map repeat app Serde.dec Serde.rlist].
  change (i_shape (sample_impls code uncode) (self_arg n)) with Serde.TUnit. change (i_shape (sample_impls code uncode) x_arg) with (Serde.TEnum [Serde.TString]).
  assert (U : forall s, Serde.dec (Postcard.postcard z false) env g Serde.TUnit s = Serde.Ok Serde.VUnit s) by (intros s; subst g; reflexivity).
  unfold Serde.rbind. rewrite U. destruct (Serde.dec _ _ g (Serde.TEnum _) _) as [v [s b]| |]; try reflexivity. rewrite U. unfold Serde.rret.
  cbn [fields_from]. change (i_from (sample_impls code uncode) (self_arg n) Serde.VUnit) with (Some (M.VOther 0)).
  destruct v as [| | | | | | | | | | | | | | | |i x]; try reflexivity. destruct i; [|reflexivity]. destruct x; reflexivity.
Qed.

(** C115: [Struct::target] of the sample [generic], whose harness is the one for [T = Bar],
    crashes exactly on the encodings of [Bar::B("qwerty")]. *)
Theorem C115_generic :
  forall (w : M.world) (z : bool) (env : nat -> Serde.ty) (fuel : nat) (code : str -> nat) (uncode : nat -> option str) (quoted : str -> str) (draws : list N) (rs : list M.mapped_arg)
         (u : user (list M.val) unit) (ui : bool) (o : opts) (llvm parent : list (bytes * bytes)) (nontrivial : bool) (data : bytes),
    M.expand_args (Some (trait_of "Trait" "T")) (Some (rname "Struct")) [] draws (f_inputs generic_method) = Ret rs -> 3 <= fuel ->
    (forall s, uncode (code s) = Some s) -> (forall s, quoted s = quoted (lit "qwerty") -> s = lit "qwerty") ->
    PropsEndToEnd.harness_of w z env fuel (sample_impls code uncode) rs 1 (generic_body uncode quoted) u ->
    unswitched (env_extend llvm (lookup_last parent)) ->
    let verdict := snd (fuzzed u ui o llvm parent nontrivial data) in
    let crashes := exists d len more, stands_for 5 0 d /\ stands_for 10 6 len /\ data = d ++ len ++ lit "qwerty" ++ more in
    (verdict = HAbort <-> crashes) /\ (verdict = HPass <-> ~ crashes).
Proof.
  intros w z env fuel code uncode quoted draws rs u ui o llvm parent nt data E Fu Cd Qu (Hd & Ht) Un.
  apply generic_expanded in E as (n & ->). apply verdicts; [exact Un|]. destruct fuel as [|[|[|fuel]]]; [lia..|].
  assert (Tg : forall s, u_target u [M.VOther 0; M.VOther (code s)] = None <-> s = lit "qwerty").
  { intros s. rewrite (Ht _ [M.VRef (M.VOther 0); M.VRef (M.VOther (code s))]) by (now apply generic_rebuilt). unfold generic_body. rewrite Cd.
    destruct (str_eqb _ _) eqn:Q.
    - apply str_eqb_eq in Q. unfold debug_bar in Q. apply app_inv_head in Q. apply app_inv_tail in Q. split; [|reflexivity]. intros _. now apply Qu.
    - split; [discriminate|]. intros ->. rewrite str_eqb_same in Q. discriminate Q. }
  unfold breaks_it. rewrite Hd, generic_decode.
  assert (Fw : forall d len more, stands_for 5 0 d -> stands_for 10 6 len ->
            Serde.dec (Postcard.postcard z false) env (S (S fuel)) (Serde.TEnum [Serde.TString]) (d ++ len ++ lit "qwerty" ++ more, Postcard.SLIDING_BUFFER_SIZE)
            = Serde.Ok (Serde.VEnum 0 (Serde.VString (lit "qwerty"))) (more, Postcard.SLIDING_BUFFER_SIZE)).
  { intros d len more Sd Sl. apply dec_enum. exists d, (lit "qwerty"), (len ++ lit "qwerty" ++ more). split; [reflexivity|]. split; [exact Sd|]. split; [now left|].
    apply dec_string. exists len, (lit "qwerty"). split; [reflexivity|]. split; [exact Sl|]. split; [reflexivity|]. split; [now left|]. split; [discriminate|]. split; reflexivity. }
  destruct (Serde.dec _ _ _ _ _) as [v [s' b']| |] eqn:D.
  - pose proof D as D0. apply dec_enum in D as (d & x & s1 & -> & Sd & Q & D). apply dec_string in D as (len & x' & Ex & Sl & F & Q' & Le & V & ->). injection Ex as <-. split.
    + intros [K|(a & K & T)]; [discriminate K|]. injection K as <-. apply Tg in T. subst x. destruct Q' as [->|(_ & _ & Q' & _)]; [|discriminate Q'].
      destruct Q as [->|(_ & Q & _)]; [|exfalso; apply app_eq_nil in Q as [_ Q]; discriminate Q]. exists d, len, s'. auto.
    + intros (d' & len' & more & Sd' & Sl' & ->). rewrite (Fw d' len' more Sd' Sl') in D0.
      assert (x = lit "qwerty") as -> by congruence. right. eexists. split; [reflexivity|]. now apply Tg.
  - split; [intros [K|(a & K & T)]; discriminate K|]. intros (d' & len' & more & Sd' & Sl' & ->). rewrite (Fw d' len' more Sd' Sl') in D. discriminate D.
  - exfalso. remember (S fuel) as g. cbn [Serde.dec Postcard.postcard Serde.d_uint] in D. unfold Postcard.uvarint in D. unfold Serde.rbind at 1 in D.
    pose proof (Postcard.varint_over z (Postcard.last_max Serde.W32) (Postcard.varint_max Serde.W32) (data, Postcard.SLIDING_BUFFER_SIZE)) as K.
    destruct (Postcard.varint _ _ _ _) as [i s1| |]; [|discriminate D|contradiction]. destruct (nth_error [Serde.TString] (N.to_nat i)) as [t|] eqn:Nt; [|discriminate D].
    assert (t = Serde.TString) as -> by (destruct (N.to_nat i) as [|[|k]]; [injection Nt as <-; reflexivity|discriminate Nt|discriminate Nt]).
    unfold Serde.rbind in D. pose proof (flat_over z env fuel Serde.TString s1 Logic.I) as K2. rewrite <- Heqg in K2. destruct (Serde.dec _ _ g _ _); [discriminate D|discriminate D|contradiction].
Qed.
Print Assumptions C115_generic.

(** C115: what is recorded for a call with [Foo::A(s)] is what is recorded for one with
    [Bar::B(s)], although [Foo] cannot be deserialised at all: the harness takes it for the latter.
    So a corpus recorded from a successful test with [Foo::A("qwerty")] crashes the harness, and
    one from a test with any other string does not. *)
Theorem C115_generic_recorded :
  forall (w : M.world) (z : bool) (env : nat -> Serde.ty) (fuel : nat) (code : str -> nat) (uncode : nat -> option str) (quoted : str -> str) (draws : list N) (rs : list M.mapped_arg)
         (u : user (list M.val) unit) (ui : bool) (o : opts) (llvm parent : list (bytes * bytes)) (nontrivial : bool) (s : str),
    M.expand_args (Some (trait_of "Trait" "T")) (Some (rname "Struct")) [] draws (f_inputs generic_method) = Ret rs -> 3 <= fuel ->
    (forall s, uncode (code s) = Some s) -> (forall s, quoted s = quoted (lit "qwerty") -> s = lit "qwerty") ->
    PropsEndToEnd.harness_of w z env fuel (sample_impls code uncode) rs 1 (generic_body uncode quoted) u ->
    unswitched (env_extend llvm (lookup_last parent)) -> valid_utf8 s = true -> List.length s <= N.to_nat 2048 ->
    let data := args_data z (sample_impls code uncode) rs 1 [M.VOther 0; M.VOther (code s)] in
    snd (fuzzed u ui o llvm parent nontrivial data) = if str_eqb s (lit "qwerty") then HAbort else HPass.
Proof.
  intros w z env fuel code uncode quoted draws rs u ui o llvm parent nt s E Fu Cd Qu H Un V L data.
  destruct (C115_generic w z env fuel code uncode quoted draws rs u ui o llvm parent nt data E Fu Cd Qu H Un) as (A & P).
  apply generic_expanded in E as (n & ->).
  assert (Ed : data = [ascii_of_N 0] ++ Postcard.leb 19 (N.of_nat (List.length s)) ++ s ++ []).
  { unfold data, args_data, Postcard.serialize, args_value. cbn [field_values].
    change (i_to (sample_impls code uncode) (self_arg n) (M.VOther 0)) with Serde.VUnit.
    change (i_to (sample_impls code uncode) x_arg (M.VOther (code s))) with (match uncode (code s) with Some s => Serde.VEnum 0 (Serde.VString s) | None => Serde.VUnit end).
    rewrite Cd. cbn [repeat app Serde.enc map List.concat Postcard.postcard Serde.c_uint]. unfold Serde.e_len. cbn [Serde.c_uint].
    change (Postcard.leb 19 (N.of_nat 0)) with [ascii_of_N 0]. cbn [app]. rewrite ?app_nil_r. reflexivity. }
  assert (Rd : Serde.dec (Postcard.postcard z false) env 2 (Serde.TEnum [Serde.TString]) (data, Postcard.SLIDING_BUFFER_SIZE) = Serde.Ok (Serde.VEnum 0 (Serde.VString s)) ([], Postcard.SLIDING_BUFFER_SIZE)).
  { assert (Vr : forall rest, Postcard.varint z (Postcard.varint_max Serde.W64) (Postcard.last_max Serde.W64) (Postcard.leb 19 (N.of_nat (List.length s)) ++ rest, Postcard.SLIDING_BUFFER_SIZE) = Serde.Ok (N.of_nat (List.length s)) (rest, Postcard.SLIDING_BUFFER_SIZE)).
    { intros rest. rewrite (Postcard.reads_varint z false); [reflexivity|reflexivity|cbn; lia|cbn; lia|]. rewrite Postcard.bits_eq. cbn [Serde.bits]. lia. }
    apply dec_enum. exists [ascii_of_N 0], s, (Postcard.leb 19 (N.of_nat (List.length s)) ++ s ++ []). split; [reflexivity|]. split; [split; [reflexivity|cbn; lia]|]. split; [left; exact Ed|].
    cbn [Serde.dec Postcard.postcard Serde.d_uint Serde.d_block]. unfold Postcard.uvarint. unfold Serde.rbind at 1. rewrite Vr. unfold Serde.rbind.
    rewrite take_ok by (unfold Postcard.SLIDING_BUFFER_SIZE; lia). rewrite V. reflexivity. }
  destruct (str_eqb s (lit "qwerty")) eqn:Q.
  - apply str_eqb_eq in Q. subst s. apply A. exists [ascii_of_N 0], (Postcard.leb 19 6), []. split; [split; [reflexivity|cbn; lia]|]. split; [split; [reflexivity|cbn; lia]|]. exact Ed.
  - apply P. intros (d & len & more & Sd & Sl & K).
    assert (Rd' : Serde.dec (Postcard.postcard z false) env 2 (Serde.TEnum [Serde.TString]) (data, Postcard.SLIDING_BUFFER_SIZE) = Serde.Ok (Serde.VEnum 0 (Serde.VString (lit "qwerty"))) (more, Postcard.SLIDING_BUFFER_SIZE)).
    { apply dec_enum. exists d, (lit "qwerty"), (len ++ lit "qwerty" ++ more). split; [reflexivity|]. split; [exact Sd|]. split; [now left|].
      apply dec_string. exists len, (lit "qwerty"). split; [reflexivity|]. split; [exact Sl|]. split; [reflexivity|]. split; [now left|]. split; [discriminate|]. split; reflexivity. }
    rewrite Rd in Rd'. assert (s = lit "qwerty") as -> by congruence. discriminate Q.
Qed.
Print Assumptions C115_generic_recorded.

(** The sample [qwerty]: its test's input passes, the wanted input crashes (also with its length in
    two bytes, and with more behind it), a prefix of it passes; and the samples [assert] and
    [generic]. *)
Example C115_example :
  let code (s : str) := if str_eqb s (lit "qwerty") then 1 else 0 in
  let uncode (n : nat) := Some (if n =? 1 then lit "qwerty" else lit "asdfgh") in
  let i := sample_impls code uncode in
  let run (rs : list M.mapped_arg) (phantoms : nat) (target : list M.val -> option unit) (data : bytes) :=
    snd (fuzzed {| u_decode := args_decode false (fun _ => Serde.TUnit) 9 i rs phantoms; u_show_args := fun _ => true; u_target := target; u_show_ret := fun _ => true |}
                false default_opts [] [] false data) in
  let qwerty := run [{| M.m_attrs := 0; M.m_ident := lit "data"; M.m_label := lit "data"; M.m_type := ref (rname "str");
                        M.m_mapped := (rname "String", M.EToOwned (M.EVar (lit "data")), M.EAsStr false (M.EField (lit "data"))) |}] 0
                    (fun a => match a with [M.VString s] => qwerty_body [M.VRef (M.VStr s)] | _ => Some tt end) in
  let assert_ := run [plain "x" "bool"] 0 assert_body in
  let generic := run [self_arg 7; x_arg] 1 (fun a => match a with [s; x] => generic_body uncode (fun s => s) [M.VRef s; M.VRef x] | _ => Some tt end) in
  let six := ascii_of_N 6 in
  qwerty (six :: lit "asdfgh") = HPass /\ qwerty (six :: lit "qwerty") = HAbort /\ qwerty (six :: lit "qwertyuiop") = HAbort /\
  qwerty (ascii_of_N 134 :: ascii_of_N 0 :: lit "qwerty") = HAbort /\ qwerty (ascii_of_N 5 :: lit "qwerty") = HPass /\
  assert_ [ascii_of_N 0] = HPass /\ assert_ [ascii_of_N 1] = HAbort /\ assert_ [ascii_of_N 2] = HPass /\
  args_data false i [self_arg 7; x_arg] 1 [M.VOther 0; M.VOther (code (lit "qwerty"))] = ascii_of_N 0 :: six :: lit "qwerty" /\
  generic (ascii_of_N 0 :: six :: lit "qwerty") = HAbort /\ generic (ascii_of_N 0 :: six :: lit "asdfgh") = HPass.
Proof. vm_compute. repeat split. Qed.
