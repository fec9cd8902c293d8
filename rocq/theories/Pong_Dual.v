(** Forward and backward search see the same trips. *)
From Coq Require Import List ZArith Bool Arith Lia.
From Verif Require Import Base Time_Model Raptor_Model Raptor_Spec Raptor_Base Raptor_Final Pong_Spec.
Import ListNotations.
Local Open Scope Z_scope.

Lemma opposite_sym P Q : opposite P Q -> opposite Q P.
Proof.
  intros [H1 H2 H3 H4 H5 H6 H7]. split; auto.
  - rewrite H1. now destruct (p_fwd P).
  - rewrite H2. exact H7.
Qed.

Section Dual.
  Variables P Q : params.
  Hypothesis HO : opposite P Q.

  Lemma op_no_later a b : no_later Q a b <-> no_later P b a.
  Proof. unfold no_later. rewrite (op_dir _ _ HO). destruct (p_fwd P); cbn; tauto. Qed.
  Lemma op_after t d : after Q t d = if p_fwd P then t - d else t + d.
  Proof. unfold after. rewrite (op_dir _ _ HO). now destruct (p_fwd P). Qed.
  Lemma op_tr l : transfer_time Q l = transfer_time P l.
  Proof. unfold transfer_time. rewrite (op_adjust _ _ HO), (op_tt _ _ HO). reflexivity. Qed.
  Lemma op_event v day s e : event_time Q v day s e = event_time P v day s e.
  Proof. unfold event_time. now rewrite (op_base _ _ HO). Qed.
  Lemma op_walk l l' d : walk P l l' d -> walk Q l' l d.
  Proof.
    intros (d0 & Hin & ->). exists d0. rewrite (op_adjust _ _ HO). split; auto.
    rewrite (op_dir _ _ HO), (op_tt _ _ HO). destruct (p_fwd P); cbn [negb]; now apply (op_foot _ _ HO).
  Qed.
  Lemma op_ride l tb l' ta : ride_ok P l tb l' ta -> ride_ok Q l' ta l tb.
  Proof.
    intros [ri r vi v day s s' st st' Hr Hv Hrun Hs Hs' Hlt El El' Hon Hoff Hcl Hsec Etb Eta].
    apply (ride_intro Q l' ta l tb ri r vi v day s' s st' st); auto.
    - now rewrite (op_tt _ _ HO).
    - rewrite (op_dir _ _ HO). destruct (p_fwd P); cbn [negb]; auto.
    - unfold get_on_allowed, get_off_allowed, wheelchair in *. rewrite (op_dir _ _ HO), (op_require _ _ HO).
      destruct (p_fwd P), (p_require P 2); auto.
    - unfold get_on_allowed, get_off_allowed, wheelchair in *. rewrite (op_dir _ _ HO), (op_require _ _ HO).
      destruct (p_fwd P), (p_require P 2); auto.
    - now rewrite (op_clasz _ _ HO).
    - intros f sec Hf Hreq Hse. rewrite (op_require _ _ HO) in Hreq. apply (Hsec f sec Hf Hreq). lia.
    - rewrite op_event, (op_dir _ _ HO), Eta. destruct (p_fwd P); auto.
    - rewrite op_event, (op_dir _ _ HO), Etb. destruct (p_fwd P); auto.
  Qed.

  (** Reversing: what can be done after [K] rides in direction [P] can be undone by [K] rides in direction [Q]. *)
  Lemma mirror (St StQ : nat -> Z -> Prop) : forall K l' ta j t,
    arrived P St (transfer_time P) K l' ta -> ready Q StQ (transfer_time Q) j l' t -> no_later P ta t ->
    exists l0 t0 d, St l0 t0 /\ arrived Q StQ (transfer_time Q) (j + K) l0 d /\ no_later P t0 d.
  Proof.
    induction K as [|K IH]; intros l' ta j t Ha HQ Ht; [inversion Ha|].
    inversion Ha as [k l t1 tb l1 ta1 Hr Hn Hride]; subst.
    assert (HA : arrived Q StQ (transfer_time Q) (S j) l tb).
    { apply (arrived_ride Q StQ (transfer_time Q) j l' t ta l tb); auto; [now apply op_no_later|now apply op_ride]. }
    replace (j + S K)%nat with (S j + K)%nat by lia.
    inversion Hr as [l2 t2 Hs|k l2 t2 Ha2|k l2 t2 l3 d Ha2 Hw]; subst.
    - exists l, t1, tb. replace (S j + 0)%nat with (S j) by lia. auto.
    - apply (IH l t2 (S j) (after Q tb (transfer_time Q l))); auto.
      + now constructor.
      + rewrite op_after, op_tr. unfold no_later, after in *. destruct (p_fwd P); lia.
    - apply (IH l2 t2 (S j) (after Q tb d)); auto.
      + apply (ready_walk Q StQ (transfer_time Q) (S j) l tb l2 d HA). now apply op_walk.
      + rewrite op_after. unfold no_later, after in *. destruct (p_fwd P); lia.
  Qed.
End Dual.

Section Trips.
  Variable P : params.
  Lemma connection_egress St K l a : connection P St (transfer_time P) K l a ->
    exists l0 t0 d, arrived P St (transfer_time P) K l0 t0 /\ egress P l0 d /\ a = after P t0 d.
  Proof.
    intros [Hn Hd Ha|l0 t0 d Hn Hd Ha Hw ->|off l0 t0 d Hoff Hd El Ha Ho ->].
    - exists l, a, 0. split; auto. split; [now apply eg_here|]. unfold after. destruct (p_fwd P); lia.
    - exists l0, t0, d. split; auto. split; auto. now apply (eg_walk P l0 d l).
    - exists l0, t0, d. split; auto. split; auto. rewrite El in Hd. now apply (eg_offset P l0 d off).
  Qed.
  Lemma egress_connection St K l0 t0 d : arrived P St (transfer_time P) K l0 t0 -> egress P l0 d ->
    exists l, connection P St (transfer_time P) K l (after P t0 d).
  Proof.
    intros Ha [Hn Hd ->|l' Hn Hd Hw|off Hoff Hd Ho].
    - exists l0. replace (after P t0 0) with t0 by (unfold after; destruct (p_fwd P); lia). now apply conn_station.
    - exists l'. now apply (conn_walk P St (transfer_time P) K l' _ l0 t0 d).
    - exists (p_end P). now apply (conn_offset P St (transfer_time P) K (p_end P) _ off l0 t0 d).
  Qed.

  (** Beginning earlier is no disadvantage: one can wait. *)
  Lemma arrived_earlier (St St' : nat -> Z -> Prop) :
    (forall l t, St l t -> exists t', no_later P t' t /\ St' l t') ->
    forall K l t, arrived P St (transfer_time P) K l t -> arrived P St' (transfer_time P) K l t.
  Proof.
    intros Hs. induction K as [|K IH]; intros l t Ha; inversion Ha as [k l1 t1 tb l2 ta Hr Hn Hride]; subst.
    inversion Hr as [l3 t3 H0|k l3 t3 Ha2|k l3 t3 l4 d Ha2 Hw]; subst.
    - destruct (Hs _ _ H0) as (t' & Hle & H1).
      apply (arrived_ride P St' (transfer_time P) 0 l1 t' tb l t); auto; [now constructor|].
      unfold no_later in *. destruct (p_fwd P); lia.
    - apply (arrived_ride P St' (transfer_time P) _ l1 (after P t3 (transfer_time P l1)) tb l t); auto.
      constructor. auto.
    - apply (arrived_ride P St' (transfer_time P) _ l1 (after P t3 d) tb l t); auto.
      eapply ready_walk; eauto.
  Qed.
  Lemma trip_earlier acc T T' K a : no_later P T' T -> trip P acc T K a -> trip P acc T' K a.
  Proof.
    intros Hle (l & Hc). apply connection_egress in Hc as (l0 & t0 & d & Ha & He & ->).
    apply (egress_connection _ _ l0); auto. revert Ha. apply arrived_earlier.
    intros l1 t1 (d1 & Hin & ->). exists (after P T' d1). split; [|exists d1; auto].
    unfold no_later, after in *. destruct (p_fwd P); lia.
  Qed.
  Lemma trip_rides acc T K a : trip P acc T K a -> (1 <= K)%nat.
  Proof.
    intros (l & Hc). apply connection_egress in Hc as (l0 & t0 & d & Ha & _). inversion Ha. lia.
  Qed.
End Trips.

Theorem trip_mirror P Q accP accQ T K a : opposite P Q -> end_matches accP Q -> end_matches accQ P ->
  trip P accP T K a -> exists d, no_later P T d /\ trip Q accQ a K d.
Proof.
  intros HO [HP1 HP2] [HQ1 HQ2] (l & Hc).
  apply connection_egress in Hc as (l0 & t0 & d & Ha & He & ->).
  destruct (HQ2 _ _ He) as (d' & Hd' & Hin).
  set (a := after P t0 d).
  assert (HrQ : ready Q (start_at Q accQ a) (transfer_time Q) 0 l0 (after Q a d')).
  { constructor. exists d'. auto. }
  destruct (mirror P Q HO (start_at P accP T) _ K l0 t0 0 _ Ha HrQ) as (l1 & t1 & t2 & (d1 & Hin1 & ->) & HaQ & Hle).
  { rewrite (op_after P Q HO). unfold a, after, no_later. destruct (p_fwd P); lia. }
  destruct (HP1 _ _ Hin1) as (d1' & Hd1 & He1).
  exists (after Q t2 d1'). split.
  - rewrite (op_after P Q HO). unfold after, no_later in *. destruct (p_fwd P); lia.
  - apply (egress_connection Q _ _ l1); auto.
Qed.
