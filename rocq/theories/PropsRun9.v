(** C111, continued: what an invocation with [--list] prints. *)
From Coq Require Import String List Ascii Bool Arith NArith Lia.
From stdpp Require Import gmap strings.
From Verif Require Import Base Utf8 Env Opts Targets Fs Meta Build Run RunFacts PropsTargets PropsRun PropsRun8.
Import ListNotations.
Local Open Scope nat_scope.

(** * Specification *)

(** [l]: the executables among [xs] that have targets, with those of their targets that the
    given name selects, without the executables of which nothing is selected. *)
Definition asked_for (exact : bool) (name : option str) (listing : executable -> bytes) (xs : list executable) (l : list (executable * list str)) : Prop :=
  exists all, with_targets listing xs all /\
    match name with Some pat => select_exes (selects exact pat) all l | None => l = all end.

(** * Proofs *)

Definition quiet (a : act) : Prop := ~ (exists x, a = AListTests x) /\ ~ (exists l, a = APrintList l).

Lemma quiet_build w o : within quiet (p_build w o).
Proof.
  unfold p_build. apply within_bind; [apply within_lift|]. intros [c [[md td] env]]. cbn [snd].
  apply within_bind; [apply within_act; split; intros (? & ?); discriminate|]. intros _. unfold perr. destruct (w_build _ _) as [[[|] ms]|]; try apply within_lift.
  apply within_bind; [apply within_for; intros []; cbn [p_compiler]; phase_tac; split; intros (? & ?); discriminate|]. intros _. apply within_lift.
Qed.

Lemma quiet_versions w afl l : within quiet (p_versions w afl l).
Proof. unfold p_versions, perr. destruct (snd _); phase_tac; split; intros (? & ?); discriminate. Qed.

(** C111: a successful invocation with [--list] prints one list, last: the executables that
    were built and asked for their tests, as far as they have targets, with the selected
    targets; it does nothing else and changes nothing. *)
Theorem C111_listed :
  forall (w : world) (o : opts) (m m' : fs) (t : list act),
    o_list o = true -> run w o m = (m', t, ROk tt) ->
    m' = m /\ exists xs t1 t2 l,
      t = t1 ++ map AListTests xs ++ t2 ++ [APrintList l] /\ asked_for (o_exact o) (o_ztarget o) (w_listing w) xs l /\
      (forall a, In a (t1 ++ t2) -> ~ (exists x, a = AListTests x) /\ ~ (exists l, a = APrintList l)).
Proof.
  intros w o m m' t L E. apply run_eq in E as (r0 & E & R).
  assert (r0 = ROk tt) by (destruct r0 as [[]|e| |n|]; try congruence; destruct (o_exit_code o); congruence). subst r0. clear R.
  assert (A : o_list (adjust o) = true /\ o_exact (adjust o) = o_exact o /\ o_ztarget (adjust o) = o_ztarget o).
  { unfold adjust. destruct (o_exit_code o); cbn; auto. }
  destruct A as (A1 & A2 & A3). rewrite <- A2, <- A3. clear A2 A3 L. revert A1 E. generalize (adjust o). clear o. intros o L E.
  apply run_shape in E as [(_ & _ & _ & e & K)|[(_ & _ & _ & K)|(_ & t1 & t2 & l & P & D & ->)]]; [congruence|exfalso; now apply (K tt)|].
  unfold dispatch in D. rewrite L in D. unfold pact in D. injection D as <- <-. split; [reflexivity|].
  unfold p_prepare in P.
  apply pbind_inv in P as [(m1 & u1 & u2 & a & X & P & ->)|(r1 & _ & _ & N & _)]; [|exfalso; now apply (N l)].
  apply pbind_inv in P as [(m3 & u3 & u4 & afl & X3 & P & ->)|(r1 & _ & _ & N & _)]; [|exfalso; now apply (N l)].
  apply pbind_inv in P as [(m5 & u5 & u6 & xs & X5 & P & ->)|(r1 & _ & _ & N & _)]; [|exfalso; now apply (N l)].
  apply pbind_inv in P as [(m7 & u7 & u8 & l' & X7 & P & ->)|(r1 & _ & _ & N & _)]; [|exfalso; now apply (N l)].
  apply pbind_inv in P as [(m9 & u9 & u10 & u & X9 & P & ->)|(r1 & _ & _ & N & _)]; [|exfalso; now apply (N l)].
  unfold pret in P. injection P as <- <- <-. unfold pact in X. injection X as <- <- _. unfold plift in X3.
  destruct (cached_cargo_afl_version (w_parse w) (w_afl w)); try discriminate X3. injection X3 as <- <- <-.
  apply C13_asked in X7 as (-> & _ & X7).
  destruct (C13_executables _ (w_listing w) xs) as (W & _ & _).
  destruct (executable_targets (w_listing w) xs) as [all|e|]; [|discriminate X7|destruct X7]. destruct X7 as (-> & Q). injection Q as Q.
  exists xs, ([AVersion] ++ u5), u9, l'. split; [|split].
  - rewrite app_nil_r. cbn [app]. now rewrite <- !app_assoc.
  - exists all. split; [now apply W|]. rewrite Q. destruct (o_ztarget o) as [pat|]; [apply C12_filter_exact|reflexivity].
  - intros b I. rewrite !in_app_iff in I. destruct I as [[[<-|[]]|I]|I].
    + split; intros (? & ?); discriminate.
    + pose proof (quiet_build w o _ _ _ _ X5) as F. rewrite Forall_forall in F. apply F. now apply elem_of_list_In.
    + pose proof (quiet_versions w _ _ _ _ _ _ X9) as F. rewrite Forall_forall in F. apply F. now apply elem_of_list_In.
Qed.
Print Assumptions C111_listed.
