(** C34: how the delays of a trip update spread over the events of a vehicle. *)
From Coq Require Import List ZArith Lia Bool Arith Sorted.
From Verif Require Import Base Time_Model Calendar_Model Query_Model Rt_Model Rt_Proofs.
Import ListNotations.
Local Open Scope Z_scope.

(** * Specification *)
(** Events of a vehicle in travel order: event 2k is the departure from stop k, event 2k - 1 the arrival at stop k. *)
Definition ev_stop (j : nat) : nat := Nat.div2 (S j).
Definition ev_arr (j : nat) : bool := Nat.odd j.
(** Delay in minutes of a stop time event (seconds, truncated). *)
Definition minutes (e : option st_event) : option Z :=
  match e with Some e => option_map (fun d => Z.quot d 60) (e_delay e) | None => None end.
(** The delay an update carries for an event of stop [k]; at stop 0 an arrival delay stands for the departure if the update has
    no departure part. *)
Definition carries (u : st_update) (k : nat) (arr : bool) : option Z :=
  if arr then minutes (u_arr u)
  else match k, minutes (u_arr u), u_dep u with
       | O, Some d, None => Some d
       | _, _, _ => minutes (u_dep u)
       end.
(** An update that only has delays (no absolute times), of at most 22 days. *)
Definition delays_only (u : st_update) : Prop :=
  forall e, (u_arr u = Some e \/ u_dep u = Some e) ->
    (e_delay e = None -> e_time e = None) /\ (forall d, e_delay e = Some d -> -32768 <= Z.quot d 60 <= 32767).
(** The stop of the update is skipped, unchanged or moved to an equivalent stop. *)
Definition stop_applicable (tt : stt) (lseq : list Z) (u : st_update) (k : nat) : Prop :=
  u_skipped u = true \/
  (u_assigned u = None /\ (u_stop_id u = None \/ u_stop_id u = Some (s_loc_id tt (loc_at lseq k)))) \/
  (exists id l, (u_assigned u = Some id \/ u_assigned u = None /\ u_stop_id u = Some id) /\ s_find_loc tt id = Some l /\
                In l (s_equiv tt (loc_at lseq k))).

(** The latest entry among the events lo, lo + 1, ..., lo + c - 1. *)
Fixpoint latest (own : nat -> option Z) (init : option Z) (lo c : nat) : option Z :=
  match c with O => init | S c' => match own (lo + c')%nat with Some d => Some d | None => latest own init lo c' end end.
(** The delay in force at event [j] of a vehicle with a run over [m] stops from stop [f]: the latest entry of the run so far.  The
    run starts without delay information at the first stop of the vehicle, and with delay 0 if the vehicle comes from another
    trip.  Outside of the run no delay is in force. *)
Definition delay_in_force (own : nat -> option Z) (f m j : nat) : option Z :=
  if (2 * f <=? j)%nat && (j <=? 2 * (f + m - 1))%nat then latest own (if Nat.eqb f 0 then None else Some 0) (2 * f) (S j - 2 * f) else None.

(** * One event *)
Lemma clamp16_range z : -32768 <= clamp16 z <= 32767.
Proof. unfold clamp16, i16_min, i16_max. lia. Qed.

Section Delay.
  Variables (tt : stt) (x : run) (i : nat) (t : nat) (day : Z) (base : Z) (n : nat).
  Hypothesis HX : r_t x = Some (t, day).
  Let lseq := s_seq tt t.
  Hypothesis HN : length lseq = n.
  Hypothesis HN2 : (2 <= n)%nat.
  Let S_ev (j : nat) : Z := s_event tt t day (ev_stop j) (ev_arr j).
  Definition ts (r : rtt) : list Z := nth i (rt_times r) [].
  Definition okr (r : rtt) : Prop := (i < length (rt_times r))%nat /\ length (ts r) = (2 * n - 2)%nat /\ rt_base r = base.

  Definition lbound (l : list Z) (j : nat) : Z := match j with O => - base | S j' => nth j' l 0 end.
  Definition ev_step (own : nat -> option Z) (s : list Z * option Z) (j : nat) : list Z * option Z :=
    match (match own j with Some d => Some d | None => snd s end) with
    | None => s
    | Some d => (set_nth (fst s) j (clamp16 (Z.max (lbound (fst s) j) (S_ev j + d - base))), Some d)
    end.
  Definition pred_of (r : rtt) (J : nat) (st : option Z) : option delay_propagation :=
    option_map (fun d => (base + nth (J - 1) (ts r) 0, d)) st.

  Lemma okr_touch r r' : touch i r r' -> okr r -> okr r'.
  Proof.
    intros T (A & B & C). destruct T. unfold okr, ts in *. rewrite tc_tlen, tc_tilen, tc_base. auto.
  Qed.
  Lemma ev_stop_arr k : (0 < k)%nat -> ev_stop (2 * k - 1) = k /\ ev_arr (2 * k - 1) = true.
  Proof.
    intros H. unfold ev_stop, ev_arr. replace (S (2 * k - 1)) with (2 * k)%nat by lia. rewrite Nat.div2_double. split; [reflexivity|].
    replace (2 * k - 1)%nat with (S (2 * (k - 1)))%nat by lia. rewrite Nat.odd_succ. apply Nat.even_spec. now exists (k - 1)%nat.
  Qed.
  Lemma ev_stop_dep k : ev_stop (2 * k) = k /\ ev_arr (2 * k) = false.
  Proof.
    unfold ev_stop, ev_arr. split; [apply Nat.div2_succ_double|]. rewrite <- Nat.negb_even. apply negb_false_iff.
    apply Nat.even_spec. now exists k.
  Qed.
  Lemma update_delay_eq r k arr d m :
    okr r -> (ev_idx k arr < 2 * n - 2)%nat ->
    let v := clamp16 (Z.max (m - base) (s_event tt t day k arr + d - base)) in
    snd (update_delay tt r x i k arr d (Some m)) = (base + v, d) /\
    ts (fst (update_delay tt r x i k arr d (Some m))) = set_nth (ts r) (ev_idx k arr) v.
  Proof.
    intros (A & B & C) H v. unfold update_delay. rewrite HX. cbn [fst snd].
    assert (E : ts (update_time r i k arr (Z.max m (s_event tt t day k arr + d))) = set_nth (ts r) (ev_idx k arr) v).
    { unfold ts, update_time. cbn [set_times rt_times]. rewrite nth_set_nth_eq by auto. f_equal.
      unfold rt_unix_to_delta, v. rewrite C. f_equal. lia. }
    split; [|exact E]. f_equal. unfold unix_event_time, event_time.
    change (nth i (rt_times (update_time r i k arr (Z.max m (s_event tt t day k arr + d)))) [])
      with (ts (update_time r i k arr (Z.max m (s_event tt t day k arr + d)))).
    rewrite E. rewrite nth_set_nth_eq by lia. unfold update_time. cbn [set_times rt_base]. lia.
  Qed.
  Lemma to_i16_id d : -32768 <= d <= 32767 -> to_i16 d = d.
  Proof. intros H. unfold to_i16. rewrite Z.mod_small; lia. Qed.

  (** What one [update_delay] does, seen as [ev_step]. *)
  Lemma delay_step r J k arr d m st :
    okr r -> ev_idx k arr = J -> (J < 2 * n - 2)%nat -> s_event tt t day k arr = S_ev J -> m - base = lbound (ts r) J ->
    forall own, (own J = Some d \/ own J = None /\ st = Some d) ->
    let (r', p') := update_delay tt r x i k arr d (Some m) in
    okr r' /\ (ts r', Some d) = ev_step own (ts r, st) J /\ Some p' = pred_of r' (S J) (Some d).
  Proof.
    intros OK EJ HJ ES EM own HO.
    pose proof (update_delay_eq r k arr d m OK ltac:(lia)) as [E1 E2]. cbv zeta in E1, E2.
    pose proof (touch_update_delay tt x i r k arr d (Some m)) as T.
    destruct (update_delay tt r x i k arr d (Some m)) as [r' p']. cbn [fst snd] in *.
    split; [eapply okr_touch; eauto|]. rewrite EJ, EM, ES in *. split.
    - unfold ev_step. cbn [fst snd]. destruct HO as [->|[-> ->]]; now rewrite E2.
    - unfold pred_of. cbn [option_map]. rewrite E1. replace (S J - 1)%nat with J by lia. rewrite E2.
      rewrite nth_set_nth_eq; [reflexivity|]. destruct OK as (_ & -> & _). exact HJ.
  Qed.

  Section Events.
    Variable asg : nat -> option st_update.             (* update assigned to a stop *)
    Hypothesis Hdel : forall k u, asg k = Some u -> delays_only u.
    Let own (j : nat) : option Z := match asg (ev_stop j) with Some u => carries u (ev_stop j) (ev_arr j) | None => None end.

    Lemma info_minutes u e : delays_only u -> (u_arr u = Some e \/ u_dep u = Some e) ->
      (u_info (Some e) = true -> exists d, e_delay e = Some d /\ minutes (Some e) = Some (Z.quot d 60) /\ to_i16 (sec_to_min d) = Z.quot d 60) /\
      (u_info (Some e) = false -> minutes (Some e) = None).
    Proof.
      intros H He. destruct (H e He) as [H1 H2]. unfold u_info, has_info, minutes. destruct (e_delay e) as [d|] eqn:E.
      - split; [|discriminate]. intros _. exists d. split; [auto|]. split; [auto|]. apply to_i16_id. unfold sec_to_min. now apply H2.
      - rewrite (H1 eq_refl). split; [discriminate|]. auto.
    Qed.
    Lemma event_step r J k arr u e m st :
      okr r -> ev_idx k arr = J -> (J < 2 * n - 2)%nat -> s_event tt t day k arr = S_ev J -> m - base = lbound (ts r) J ->
      delays_only u -> (u_arr u = Some e \/ u_dep u = Some e) -> u_info (Some e) = true -> own J = minutes (Some e) ->
      let (r', p') := update_event tt r x i k arr e (Some m) in
      exists d, okr r' /\ (ts r', Some d) = ev_step own (ts r, st) J /\ Some p' = pred_of r' (S J) (Some d).
    Proof.
      intros OK EJ HJ ES EM HD He HI HO. destruct (info_minutes u e HD He) as [H1 _]. destruct (H1 HI) as (d & E1 & E2 & E3).
      unfold update_event. rewrite E1, HX, E3.
      pose proof (delay_step r J k arr (Z.quot d 60) m st OK EJ HJ ES EM own ltac:(left; congruence)) as K.
      destruct (update_delay tt r x i k arr (Z.quot d 60) (Some m)) as [r' p']. exists (Z.quot d 60). exact K.
    Qed.
    Lemma propagate_step r J k arr st :
      okr r -> ev_idx k arr = J -> (J < 2 * n - 2)%nat -> s_event tt t day k arr = S_ev J -> (0 < J)%nat \/ st = None -> own J = None ->
      let (r', p') := match pred_of r J st with
                      | Some p => let (r', p') := update_delay tt r x i k arr (snd p) (Some (fst p)) in (r', Some p')
                      | None => (r, pred_of r J st) end in
      exists st', okr r' /\ (ts r', st') = ev_step own (ts r, st) J /\ p' = pred_of r' (S J) st'.
    Proof.
      intros OK EJ HJ ES HP HO. destruct st as [d|]; cbn [pred_of option_map].
      - cbn [fst snd].
        assert (EM : base + nth (J - 1) (ts r) 0 - base = lbound (ts r) J).
        { destruct J as [|J']; [destruct HP; [lia|discriminate]|]. cbn [lbound]. replace (S J' - 1)%nat with J' by lia. lia. }
        pose proof (delay_step r J k arr d (base + nth (J - 1) (ts r) 0) (Some d) OK EJ HJ ES EM own ltac:(right; auto)) as K.
        destruct (update_delay tt r x i k arr d (Some (base + nth (J - 1) (ts r) 0))) as [r' p']. exists (Some d). exact K.
      - exists None. split; [auto|]. split; [|reflexivity]. unfold ev_step. cbn [snd]. now rewrite HO.
    Qed.

    (** Arrival at stop k. *)
    Lemma arrival_step r k st :
      okr r -> (0 < k < n)%nat -> k <> r_from x ->
      let (r', p') := update_arrival tt x i r (asg k) k (pred_of r (2 * k - 1) st) in
      exists st', okr r' /\ (ts r', st') = ev_step own (ts r, st) (2 * k - 1) /\ p' = pred_of r' (S (2 * k - 1)) st'.
    Proof.
      intros OK Hk Hf. unfold update_arrival. destruct (Nat.eqb_spec k (r_from x)) as [|_]; [congruence|].
      destruct (ev_stop_arr k ltac:(lia)) as [E1 E2].
      assert (EJ : ev_idx k true = (2 * k - 1)%nat) by (unfold ev_idx; lia).
      assert (ES : s_event tt t day k true = S_ev (2 * k - 1)) by (unfold S_ev; now rewrite E1, E2).
      assert (EO : own (2 * k - 1) = match asg k with Some u => minutes (u_arr u) | None => None end).
      { unfold own. rewrite E1, E2. destruct (asg k); reflexivity. }
      destruct (asg k) as [u|] eqn:EA.
      - destruct (u_info (u_arr u)) eqn:EI.
        + destruct (u_arr u) as [e|] eqn:Ee; [|discriminate].
          assert (EM : fallback_pred r i (pred_of r (2 * k - 1) st) k true - base = lbound (ts r) (2 * k - 1)).
          { destruct OK as (_ & _ & OB). replace (lbound (ts r) (2 * k - 1)) with (nth (2 * k - 2) (ts r) 0)
              by (replace (2 * k - 1)%nat with (S (2 * k - 2)) by lia; reflexivity).
            destruct st as [d|]; cbn [pred_of option_map fallback_pred fst].
            - replace (2 * k - 1 - 1)%nat with (2 * k - 2)%nat by lia. lia.
            - destruct (Nat.eqb_spec k 0); [lia|]. unfold unix_event_time, event_time, ev_idx. fold (ts r). rewrite OB.
              replace ((k - 1) * 2 - 0)%nat with (2 * k - 2)%nat by lia. lia. }
          pose proof (event_step r (2 * k - 1) k true u e (fallback_pred r i (pred_of r (2 * k - 1) st) k true) st
                        OK EJ ltac:(lia) ES EM (Hdel k u EA) ltac:(left; auto) EI EO) as K.
          destruct (update_event tt r x i k true e (Some (fallback_pred r i (pred_of r (2 * k - 1) st) k true))) as [r' p'].
          destruct K as (d & K). exists (Some d). exact K.
        + assert (EO' : own (2 * k - 1) = None).
          { rewrite EO. destruct (u_arr u) as [e|] eqn:Ee; [|reflexivity].
            now apply (info_minutes u e (Hdel k u EA) ltac:(left; auto)). }
          exact (propagate_step r (2 * k - 1) k true st OK EJ ltac:(lia) ES ltac:(left; lia) EO').
      - exact (propagate_step r (2 * k - 1) k true st OK EJ ltac:(lia) ES ltac:(left; lia) EO).
    Qed.
    (** Departure from stop k. *)
    Lemma departure_step r k st :
      okr r -> (k < n - 1)%nat -> (0 < k)%nat \/ st = None ->
      let (r', p') := update_departure tt x i lseq r (asg k) k (pred_of r (2 * k) st) in
      exists st', okr r' /\ (ts r', st') = ev_step own (ts r, st) (2 * k) /\ p' = pred_of r' (2 * k + 1) st'.
    Proof.
      intros OK Hk Hst. unfold update_departure.
      destruct (ev_stop_dep k) as [E1 E2].
      assert (EJ : ev_idx k false = (2 * k)%nat) by (unfold ev_idx; lia).
      assert (ES : s_event tt t day k false = S_ev (2 * k)) by (unfold S_ev; now rewrite E1, E2).
      assert (EO : own (2 * k) = match asg k with Some u => carries u k false | None => None end).
      { unfold own. rewrite E1, E2. reflexivity. }
      assert (HJ : (2 * k < 2 * n - 2)%nat) by lia.
      replace (2 * k + 1)%nat with (S (2 * k)) by lia.
      assert (HP : (0 < 2 * k)%nat \/ st = None) by (destruct Hst; [left; lia|right; auto]).
      assert (EM : fallback_pred r i (pred_of r (2 * k) st) k false - base = lbound (ts r) (2 * k)).
      { destruct OK as (_ & _ & OB). destruct st as [d|]; cbn [pred_of option_map fallback_pred fst].
        - destruct Hst as [Hk0|]; [|discriminate]. destruct (2 * k)%nat as [|j] eqn:Ej; [lia|]. cbn [lbound].
          replace (S j - 1)%nat with j by lia. lia.
        - destruct (Nat.eqb_spec k 0) as [->|Hk0]; [cbn; lia|].
          destruct (2 * k)%nat as [|j] eqn:Ej; [lia|]. cbn [lbound]. unfold unix_event_time, event_time, ev_idx. fold (ts r). rewrite OB.
          replace (k * 2 - 1)%nat with j by lia. lia. }
      destruct (asg k) as [u|] eqn:EA.
      - destruct (Nat.eqb k 0 && (u_info (u_arr u) && match u_dep u with Some _ => false | None => true end)) eqn:EF.
        + apply andb_true_iff in EF as [Ek EF]. apply Nat.eqb_eq in Ek. apply andb_true_iff in EF as [EI ED].
          destruct (u_dep u) eqn:Eu; [discriminate|]. destruct (u_arr u) as [e|] eqn:Ee; [|discriminate].
          assert (EM' : 0 - base = lbound (ts r) (2 * k)) by (rewrite Ek; cbn; lia).
          assert (EO' : own (2 * k) = minutes (Some e)).
          { rewrite EO. unfold carries. rewrite Ek, Eu, Ee. destruct (info_minutes u e (Hdel k u EA) ltac:(left; auto)) as [H1 _].
            destruct (H1 EI) as (d & _ & -> & _). reflexivity. }
          pose proof (event_step r (2 * k) k false u e 0 st OK EJ HJ ES EM' (Hdel k u EA) ltac:(left; auto) EI EO') as K.
          destruct (update_event tt r x i k false e (Some 0)) as [r' p']. destruct K as (d & K). exists (Some d). exact K.
        + destruct (Nat.eqb_spec k (length lseq - 1)) as [|_]; [lia|].
          assert (EC : carries u k false = minutes (u_dep u)).
          { unfold carries. destruct k as [|k']; [|reflexivity]. cbn [Nat.eqb andb] in EF.
            destruct (u_dep u) as [e'|] eqn:Eu; [destruct (minutes (u_arr u)); reflexivity|].
            rewrite andb_true_r in EF. destruct (u_arr u) as [e|] eqn:Ee; [|reflexivity].
            destruct (info_minutes u e (Hdel 0%nat u EA) ltac:(left; auto)) as [_ H2]. now rewrite (H2 EF). }
          destruct (u_info (u_dep u)) eqn:EI.
          * destruct (u_dep u) as [e|] eqn:Ee; [|discriminate].
            pose proof (event_step r (2 * k) k false u e (fallback_pred r i (pred_of r (2 * k) st) k false) st
                          OK EJ HJ ES EM (Hdel k u EA) ltac:(right; auto) EI ltac:(congruence)) as K.
            destruct (update_event tt r x i k false e (Some (fallback_pred r i (pred_of r (2 * k) st) k false))) as [r' p'].
            destruct K as (d & K). exists (Some d). exact K.
          * assert (EO' : own (2 * k) = None).
            { rewrite EO, EC. destruct (u_dep u) as [e|] eqn:Ee; [|reflexivity].
              now apply (info_minutes u e (Hdel k u EA) ltac:(right; auto)). }
            exact (propagate_step r (2 * k) k false st OK EJ HJ ES HP EO').
      - rewrite andb_false_r. destruct (Nat.eqb_spec k (length lseq - 1)) as [|_]; [lia|].
        exact (propagate_step r (2 * k) k false st OK EJ HJ ES HP EO).
    Qed.

    (** ** Assignment of updates to stops *)
    Variable pos : st_update -> option nat.              (* the stop an update is about *)
    Definition at_pos (k : nat) (u : st_update) : bool := match pos u with Some p => Nat.eqb p k | None => false end.
    (** Increasing positions, starting with [lo]. *)
    Fixpoint increasing (lo hi : nat) (us : list st_update) : Prop :=
      match us with
      | [] => True
      | u :: us' => match pos u with None => increasing lo hi us' | Some p => (lo <= p < hi)%nat /\ increasing (S p) hi us' end
      end.
    Definition matching (seqs : list Z) (k : nat) (us : list st_update) : Prop :=
      forall u, In u us -> forall j, (j < length seqs)%nat ->
        stop_matches tt x lseq u (k + j) (nth j seqs 0) = true <-> pos u = Some (k + j)%nat.
    Lemma first_match_none u seqs : forall k, (forall j, (j < length seqs)%nat -> stop_matches tt x lseq u (k + j) (nth j seqs 0) = false) ->
      first_match tt x lseq u k seqs = None.
    Proof.
      induction seqs as [|s seqs IH]; intros k H; cbn [first_match]; [reflexivity|].
      pose proof (H 0%nat ltac:(cbn; lia)) as H0. rewrite Nat.add_0_r in H0. cbn [nth] in H0. rewrite H0.
      rewrite IH; [reflexivity|]. intros j Hj. specialize (H (S j) ltac:(cbn; lia)). now replace (S k + j)%nat with (k + S j)%nat by lia.
    Qed.
    Lemma first_match_at u seqs : forall k p, (p < length seqs)%nat ->
      (forall j, (j < length seqs)%nat -> stop_matches tt x lseq u (k + j) (nth j seqs 0) = true <-> j = p) ->
      first_match tt x lseq u k seqs = Some p.
    Proof.
      induction seqs as [|s seqs IH]; intros k p Hp H; cbn [length] in *; [lia|]. cbn [first_match].
      pose proof (H 0%nat ltac:(lia)) as H0. rewrite Nat.add_0_r in H0. cbn [nth] in H0.
      destruct p as [|p].
      - now rewrite (proj2 H0 eq_refl).
      - destruct (stop_matches tt x lseq u k s) eqn:E; [destruct H0 as [H0 _]; specialize (H0 eq_refl); discriminate|].
        rewrite (IH (S k) p); [reflexivity|lia|]. intros j Hj. specialize (H (S j) ltac:(lia)). cbn [nth] in H.
        replace (S k + j)%nat with (k + S j)%nat by lia. rewrite H. lia.
    Qed.
    Lemma increasing_weaken us : forall lo lo' hi, (lo' <= lo)%nat -> increasing lo hi us -> increasing lo' hi us.
    Proof.
      induction us as [|u us IH]; intros lo lo' hi Hl H; cbn [increasing] in *; auto. destruct (pos u); [|eauto].
      destruct H. split; [lia|auto].
    Qed.
    Lemma increasing_find us : forall lo hi k, increasing lo hi us -> (k < lo)%nat -> find (at_pos k) us = None.
    Proof.
      induction us as [|u us IH]; intros lo hi k H Hk; cbn [increasing find] in *; auto. unfold at_pos at 1.
      destruct (pos u) as [p|].
      - destruct H as [H1 H2]. destruct (Nat.eqb_spec p k); [lia|]. eapply IH; [exact H2|lia].
      - eapply IH; eauto.
    Qed.
    Lemma next_update_spec seqs : forall us k, seqs <> [] -> matching seqs k us -> increasing k (k + length seqs) us ->
      let (us1, b) := next_update tt x lseq us k seqs in
      (forall u, In u us1 -> In u us) /\
      match find (at_pos k) us with
      | Some u => exists us2, us1 = u :: us2 /\ b = true /\ increasing (S k) (k + length seqs) us2 /\
                  forall k', (k < k')%nat -> find (at_pos k') us2 = find (at_pos k') us
      | None => (us1 = [] \/ b = false) /\ increasing (S k) (k + length seqs) us1 /\
                forall k', (k < k')%nat -> find (at_pos k') us1 = find (at_pos k') us
      end.
    Proof.
      intros us k Hne. assert (HL : (0 < length seqs)%nat) by (destruct seqs; [congruence|cbn; lia]).
      induction us as [|u us IH]; intros HM HI; cbn [next_update].
      - cbn [find]. split; [auto|]. split; [auto|]. split; [exact I|reflexivity].
      - cbn [increasing] in HI. destruct (pos u) as [p|] eqn:EP.
        + destruct HI as [Hp HI].
          rewrite (first_match_at u seqs k (p - k)).
          2: lia.
          2: { intros j Hj. rewrite (HM u ltac:(now left) j Hj), EP. split; intros E; [injection E as ->; lia|f_equal; lia]. }
          cbn [find]. unfold at_pos at 1. rewrite EP. destruct (Nat.eqb_spec p k) as [->|Hpk].
          * rewrite Nat.sub_diag. split; [auto|]. exists us. split; [auto|]. split; [auto|]. split; [exact HI|].
            intros k' Hk'. cbn [find]. unfold at_pos at 2. rewrite EP. destruct (Nat.eqb_spec k k'); [lia|reflexivity].
          * destruct (p - k)%nat as [|q] eqn:Eq; [lia|]. split; [auto|].
            rewrite (increasing_find us (S p) (k + length seqs) k HI ltac:(lia)).
            split; [auto|]. split; [|reflexivity]. cbn [increasing]. rewrite EP. split; [lia|exact HI].
        + rewrite first_match_none.
          2: { intros j Hj. destruct (stop_matches tt x lseq u (k + j) (nth j seqs 0)) eqn:E; [|reflexivity].
               apply (HM u ltac:(now left) j Hj) in E. congruence. }
          specialize (IH (fun v Hv => HM v (or_intror Hv)) HI).
          destruct (next_update tt x lseq us k seqs) as [us1 b]. destruct IH as [IH1 IH2].
          split; [intros v Hv; right; auto|]. cbn [find]. unfold at_pos at 1. rewrite EP.
          assert (F : forall k', find (at_pos k') (u :: us) = find (at_pos k') us).
          { intros k'. cbn [find]. unfold at_pos at 1. now rewrite EP. }
          destruct (find (at_pos k) us) as [v|].
          * destruct IH2 as (us2 & A & B & C & D). exists us2. repeat split; auto. intros k' Hk'. transitivity (find (at_pos k') us); [auto|symmetry; apply F].
          * destruct IH2 as (A & C & D). split; [auto|]. split; [auto|]. intros k' Hk'. transitivity (find (at_pos k') us); [auto|symmetry; apply F].
    Qed.
    Lemma update_stop_ok r u k : stop_applicable tt lseq u k ->
      exists r1, update_stop tt i lseq r u k = Some r1 /\ rt_times r1 = rt_times r /\ rt_base r1 = rt_base r.
    Proof.
      intros H. unfold update_stop.
      assert (P : forall v, exists r1, Some (set_stops r i (set_nth (nth i (rt_stops r) []) k v)) = Some r1 /\ rt_times r1 = rt_times r /\ rt_base r1 = rt_base r)
        by (intros v; eexists; split; [reflexivity|]; split; reflexivity).
      destruct (u_skipped u) eqn:ESk; [apply P|].
      destruct H as [H|[[H1 H2]|(id & l & H1 & H2 & H3)]].
      - congruence.
      - rewrite H1. assert (E : match u_stop_id u with Some s => negb (s =? s_loc_id tt (loc_at lseq k)) | None => false end = false).
        { destruct H2 as [->| ->]; [reflexivity|]. now rewrite Z.eqb_refl. }
        rewrite E. apply P.
      - assert (E3 : existsb (Nat.eqb l) (s_equiv tt (loc_at lseq k)) = true).
        { apply existsb_exists. exists l. split; [auto|]. apply Nat.eqb_refl. }
        destruct H1 as [H1|[H1 H1']].
        + rewrite H1, H2, E3. apply P.
        + rewrite H1, H1'. destruct (negb (id =? s_loc_id tt (loc_at lseq k))); [rewrite H2, E3|]; apply P.
    Qed.

    (** ** The whole loop *)
    Hypothesis Happ : forall k u, asg k = Some u -> stop_applicable tt lseq u k.
    Definition first_ev (k : nat) : nat := if Nat.eqb k (r_from x) then (2 * k)%nat else (2 * k - 1)%nat.
    Lemma stop_loop_events seqs : forall k us r st,
      okr r -> matching seqs k us -> increasing k (k + length seqs) us ->
      (forall k', (k <= k')%nat -> find (at_pos k') us = asg k') ->
      (r_from x <= k)%nat -> (k + length seqs <= n)%nat -> (0 < k)%nat \/ st = None ->
      exists r', stop_loop tt x i lseq seqs k us r (pred_of r (first_ev k) st) = r' /\ okr r' /\
        ts r' = fst (fold_left (ev_step own) (List.seq (first_ev k) (Nat.min (2 * (k + length seqs) - 1) (2 * n - 2) - first_ev k)) (ts r, st)).
    Proof.
      induction seqs as [|s seqs IH]; intros k us r st OK HM HI HA Hf Hn Hst.
      - exists r. split; [reflexivity|]. split; [exact OK|]. cbn [length]. rewrite Nat.add_0_r.
        assert (E : (Nat.min (2 * k - 1) (2 * n - 2) - first_ev k = 0)%nat) by (unfold first_ev; destruct (Nat.eqb k (r_from x)); lia).
        rewrite E. reflexivity.
      - cbn [stop_loop]. pose proof (next_update_spec (s :: seqs) us k ltac:(discriminate) HM HI) as NU.
        destruct (next_update tt x lseq us k (s :: seqs)) as [us1 b]. destruct NU as [NI NU]. rewrite (HA k ltac:(lia)) in NU.
        cbn [length] in Hn, HI, NU.
        (* the two event updates and the rest of the loop *)
        assert (STEP : forall us2 r1, okr r1 -> ts r1 = ts r -> (forall u, In u us2 -> In u us) ->
          increasing (S k) (k + S (length seqs)) us2 -> (forall k', (k < k')%nat -> find (at_pos k') us2 = find (at_pos k') us) ->
          exists r',
            (let (r2, pred2) := update_arrival tt x i r1 (asg k) k (pred_of r1 (first_ev k) st) in
             let (r3, pred3) := update_departure tt x i lseq r2 (asg k) k pred2 in stop_loop tt x i lseq seqs (S k) us2 r3 pred3) = r' /\
            okr r' /\
            ts r' = fst (fold_left (ev_step own) (List.seq (first_ev k) (Nat.min (2 * (k + S (length seqs)) - 1) (2 * n - 2) - first_ev k)) (ts r, st))).
        { intros us2 r1 OK1 ET HIn HI2 HA2.
          assert (MM : matching seqs (S k) us2).
          { intros u Hu j Hj. specialize (HM u (HIn u Hu) (S j) ltac:(cbn; lia)). cbn [nth] in HM.
            now replace (S k + j)%nat with (k + S j)%nat by lia. }
          assert (ARR : exists r2 st2, update_arrival tt x i r1 (asg k) k (pred_of r1 (first_ev k) st) = (r2, pred_of r2 (2 * k) st2) /\ okr r2 /\
            ((0 < k)%nat \/ st2 = None) /\
            (ts r2, st2) = fold_left (ev_step own) (List.seq (first_ev k) (2 * k - first_ev k)) (ts r, st)).
          { unfold first_ev. destruct (Nat.eqb_spec k (r_from x)) as [Ek|Ek].
            - exists r1, st. split; [|split; [exact OK1|split; [exact Hst|]]].
              + unfold update_arrival. now rewrite <- Ek, Nat.eqb_refl.
              + rewrite Nat.sub_diag. cbn [List.seq fold_left]. now rewrite ET.
            - pose proof (arrival_step r1 k st OK1 ltac:(lia) Ek) as K.
              destruct (update_arrival tt x i r1 (asg k) k (pred_of r1 (2 * k - 1) st)) as [r2 p2]. destruct K as (st2 & A & B & C).
              exists r2, st2. replace (S (2 * k - 1)) with (2 * k)%nat in C by lia. split; [now rewrite C|]. split; [exact A|]. split; [left; lia|].
              replace (2 * k - (2 * k - 1))%nat with 1%nat by lia. cbn [List.seq fold_left]. rewrite <- ET. exact B. }
          destruct ARR as (r2 & st2 & -> & OK2 & Hst2 & EA).
          assert (DEP : exists r3 st3, update_departure tt x i lseq r2 (asg k) k (pred_of r2 (2 * k) st2) = (r3, pred_of r3 (if Nat.eqb k (n - 1) then 2 * k else 2 * k + 1)%nat st3) /\ okr r3 /\
            (ts r3, st3) = fold_left (ev_step own) (List.seq (2 * k) (if Nat.eqb k (n - 1) then 0 else 1)%nat) (ts r2, st2)).
          { destruct (Nat.eqb_spec k (n - 1)) as [Ek|Ek].
            - exists r2, st2. split; [|split; [exact OK2|reflexivity]]. unfold update_departure.
              assert (E0 : Nat.eqb k 0 = false) by (apply Nat.eqb_neq; lia). rewrite E0. cbn [andb].
              fold lseq in HN. rewrite HN. rewrite (proj2 (Nat.eqb_eq k (n - 1)) Ek). reflexivity.
            - pose proof (departure_step r2 k st2 OK2 ltac:(lia) Hst2) as K.
              destruct (update_departure tt x i lseq r2 (asg k) k (pred_of r2 (2 * k) st2)) as [r3 p3]. destruct K as (st3 & A & B & C).
              exists r3, st3. split; [now rewrite C|]. split; [exact A|]. cbn [List.seq fold_left]. exact B. }
          destruct DEP as (r3 & st3 & -> & OK3 & ED).
          destruct seqs as [|s' seqs'] eqn:Eseqs.
          - exists r3. split; [reflexivity|]. split; [exact OK3|].
            replace (Nat.min (2 * (k + S (length (@nil Z))) - 1) (2 * n - 2) - first_ev k)%nat
              with ((2 * k - first_ev k) + (if Nat.eqb k (n - 1) then 0 else 1))%nat.
            2: { cbn [length]. unfold first_ev. destruct (Nat.eqb_spec k (n - 1)), (Nat.eqb_spec k (r_from x)); lia. }
            rewrite seq_app, fold_left_app, <- EA. 
            replace (first_ev k + (2 * k - first_ev k))%nat with (2 * k)%nat by (unfold first_ev; destruct (Nat.eqb k (r_from x)); lia).
            now rewrite <- ED.
          - rewrite <- Eseqs in *. assert (HLs : (0 < length seqs)%nat) by (subst seqs; cbn; lia).
            assert (Ek : Nat.eqb k (n - 1) = false) by (apply Nat.eqb_neq; lia). rewrite Ek in *.
            assert (EF : first_ev (S k) = (2 * k + 1)%nat).
            { unfold first_ev. destruct (Nat.eqb_spec (S k) (r_from x)); lia. }
            destruct (IH (S k) us2 r3 st3 OK3 MM) as (r' & E1 & E2 & E3).
            + now replace (S k + length seqs)%nat with (k + S (length seqs))%nat by lia.
            + intros k' Hk'. rewrite HA2 by lia. apply HA. lia.
            + lia.
            + lia.
            + left; lia.
            + rewrite EF in E1, E3. exists r'. split; [exact E1|]. split; [exact E2|]. rewrite E3. f_equal.
              replace (S k + length seqs)%nat with (k + S (length seqs))%nat by lia.
              replace (Nat.min (2 * (k + S (length seqs)) - 1) (2 * n - 2) - first_ev k)%nat
                with ((2 * k - first_ev k) + (1 + (Nat.min (2 * (k + S (length seqs)) - 1) (2 * n - 2) - (2 * k + 1))))%nat.
              2: { unfold first_ev. destruct (Nat.eqb_spec k (r_from x)); lia. }
              rewrite seq_app, fold_left_app, <- EA.
              replace (first_ev k + (2 * k - first_ev k))%nat with (2 * k)%nat by (unfold first_ev; destruct (Nat.eqb k (r_from x)); lia).
              rewrite seq_app, fold_left_app, <- ED. reflexivity. }
        destruct (asg k) as [u|] eqn:EA.
        + destruct NU as (us2 & -> & -> & C & D).
          destruct (update_stop_ok r u k (Happ k u EA)) as (r1 & ES & ET & EB). rewrite ES.
          assert (OK1 : okr r1) by (eapply okr_touch; [eapply touch_update_stop; exact ES|exact OK]).
          assert (ET' : ts r1 = ts r) by (unfold ts; now rewrite ET).
          assert (EPr : pred_of r (first_ev k) st = pred_of r1 (first_ev k) st) by (unfold pred_of; now rewrite ET').
          rewrite EPr. apply STEP; auto. intros v Hv. apply NI. now right.
        + destruct NU as (NB & C & D).
          assert (EQ : forall (A : Type) (a b0 : A), match us1, b with u :: us2, true => a | _, _ => b0 end = b0).
          { intros A a b0. destruct NB as [->| ->]; [reflexivity|]. destruct us1; reflexivity. }
          destruct (STEP us1 r OK eq_refl NI C D) as (r' & E1 & E2).
          exists r'. split; [|exact E2]. rewrite <- E1. destruct NB as [->| ->]; [reflexivity|]. destruct us1; reflexivity.
    Qed.
  End Events.
End Delay.

(** * Closed form *)
Section Closed.
  Variables (tt : stt) (t : nat) (day : Z) (base : Z).
  Let S_ev (j : nat) : Z := s_event tt t day (ev_stop j) (ev_arr j).
  Lemma fold_events own J T st0 c : (J + c <= length T)%nat ->
    let (l, st) := fold_left (ev_step tt t day base own) (List.seq J c) (T, st0) in
    length l = length T /\ st = latest own st0 J c /\
    (forall j, (j < J \/ J + c <= j)%nat -> nth j l 0 = nth j T 0) /\
    (forall j, (J <= j < J + c)%nat ->
      match latest own st0 J (S j - J) with
      | Some d => nth j l 0 = clamp16 (Z.max (lbound base l j) (S_ev j + d - base))
      | None => nth j l 0 = nth j T 0 end).
  Proof.
    induction c as [|c IH]; intros HL.
    - cbn. repeat split; auto. intros j Hj. lia.
    - rewrite seq_S, fold_left_app. specialize (IH ltac:(lia)).
      destruct (fold_left (ev_step tt t day base own) (List.seq J c) (T, st0)) as [l st]. destruct IH as (A & B & C & D).
      cbn [fold_left]. unfold ev_step. cbn [fst snd]. cbn [latest]. rewrite <- B.
      destruct (match own (J + c)%nat with Some d => Some d | None => st end) as [d|] eqn:E.
      + assert (LT : forall j v, (j < J + c)%nat -> lbound base (set_nth l (J + c) v) j = lbound base l j).
        { intros [|j] v Hj; cbn [lbound]; [reflexivity|]. apply nth_set_nth_neq. lia. }
        split; [now rewrite set_nth_length|]. split; [reflexivity|]. split.
        * intros j Hj. rewrite nth_set_nth_neq by lia. apply C. lia.
        * intros j Hj. destruct (Nat.eq_dec j (J + c)) as [->|Hn].
          -- replace (S (J + c) - J)%nat with (S c) by lia. cbn [latest]. rewrite <- B, E.
             rewrite nth_set_nth_eq by lia. f_equal. f_equal. destruct (J + c)%nat as [|q] eqn:Eq; cbn [lbound]; [reflexivity|].
             rewrite nth_set_nth_neq by lia. reflexivity.
          -- specialize (D j ltac:(lia)). rewrite nth_set_nth_neq by lia.
             destruct (latest own st0 J (S j - J)); [rewrite LT by lia|]; exact D.
      + split; [exact A|]. split; [destruct (own (J + c)%nat); [discriminate|congruence]|]. split.
        * intros j Hj. apply C. lia.
        * intros j Hj. destruct (Nat.eq_dec j (J + c)) as [->|Hn].
          -- replace (S (J + c) - J)%nat with (S c) by lia. cbn [latest]. rewrite <- B, E. apply C. lia.
          -- apply D. lia.
  Qed.
End Closed.

Lemma clamp16_max a s : -32768 <= a <= 32767 -> clamp16 (Z.max a s) = Z.max a (clamp16 s).
Proof. unfold clamp16, i16_min, i16_max. lia. Qed.
Lemma latest_ext own own' init lo c : (forall j, (lo <= j < lo + c)%nat -> own j = own' j) -> latest own init lo c = latest own' init lo c.
Proof.
  induction c as [|c IH]; intros H; cbn [latest]; [reflexivity|]. rewrite <- (H (lo + c)%nat) by lia. rewrite IH; [reflexivity|].
  intros j Hj. apply H. lia.
Qed.

(** Any assignment of updates to stops. *)
Lemma delays_generic tt x i t day r seqs us (pos : st_update -> option nat) :
  let n := length (s_seq tt t) in
  let f := r_from x in
  let m := length seqs in
  let r' := update_run_rt tt x i (s_seq tt t) r seqs us in
  let T j := nth j (nth i (rt_times r) []) 0 in
  let T' j := nth j (nth i (rt_times r') []) 0 in
  let asg k := find (at_pos pos k) us in
  let own j := match asg (ev_stop j) with Some u => carries u (ev_stop j) (ev_arr j) | None => None end in
  r_t x = Some (t, day) -> (2 <= n)%nat -> (0 < m)%nat -> (f + m <= n)%nat ->
  (i < length (rt_times r))%nat -> length (nth i (rt_times r) []) = (2 * n - 2)%nat ->
  32768 <= rt_base r -> (forall j, -32768 <= T j <= 32767) ->
  matching tt x t pos seqs f us -> increasing pos f (f + m) us ->
  (forall u, In u us -> delays_only u) -> (forall k u, asg k = Some u -> stop_applicable tt (s_seq tt t) u k) ->
  forall j, (j < 2 * n - 2)%nat ->
    T' j = Z.max (match j with O => -32768 | S j' => T' j' end)
                 (match delay_in_force own f m j with
                  | Some d => clamp16 (s_event tt t day (ev_stop j) (ev_arr j) + d - rt_base r)
                  | None => T j end).
Proof.
  intros n f m r' T T' asg own HX HN Hm Hfm Hi HL HB HT HM HI HD HA j Hj.
  destruct (update_run_rt_frame tt x i (s_seq tt t) r seqs us) as (F1 & _). fold r' in F1.
  set (st0 := if Nat.eqb f 0 then None else Some 0).
  assert (EP : (if scheduled x && Nat.ltb 0 (r_from x) then Some (unix_event_time r i (r_from x) true, 0) else None) =
               pred_of i (rt_base r) r (first_ev x f) st0).
  { unfold scheduled. rewrite HX. cbn [andb]. fold f. unfold st0. destruct (Nat.eqb_spec f 0) as [E|E].
    - rewrite E. reflexivity.
    - destruct (Nat.ltb_spec 0 f); [|lia]. unfold pred_of. cbn [option_map]. unfold first_ev. fold f. rewrite Nat.eqb_refl.
      unfold unix_event_time, event_time, ts, ev_idx. now replace (f * 2 - 1)%nat with (2 * f - 1)%nat by lia. }
  assert (OK : okr i (rt_base r) n r) by (repeat split; auto).
  destruct (stop_loop_events tt x i t day (rt_base r) n HX eq_refl HN asg
              ltac:(intros k u E; apply HD; apply find_some in E; tauto) pos HA seqs f us r st0 OK HM HI
              ltac:(intros k' _; reflexivity) ltac:(reflexivity) Hfm
              ltac:(unfold st0; destruct (Nat.eqb_spec f 0); [right; auto|left; lia])) as (r1 & E1 & OK1 & E2).
  assert (E3 : nth i (rt_times r') [] = monotone (-32768) (ts i r1)).
  { rewrite F1. unfold before_cancel. rewrite EP. unfold scheduled at 1 2. rewrite HX. fold f. rewrite E1.
    cbn [set_times rt_times]. rewrite nth_set_nth_eq by apply OK1. reflexivity. }
  assert (EF : first_ev x f = (2 * f)%nat) by (unfold first_ev; fold f; now rewrite Nat.eqb_refl).
  rewrite EF in E2. fold m in E2.
  set (c := (Nat.min (2 * (f + m) - 1) (2 * n - 2) - 2 * f)%nat) in E2.
  assert (Hc : (2 * f + c <= length (ts i r))%nat) by (unfold ts; rewrite HL; unfold c; lia).
  pose proof (fold_events tt t day (rt_base r) own (2 * f) (ts i r) st0 c Hc) as FE.
  fold (own) in E2.
  match type of E2 with _ = fst ?z => change z with (fold_left (ev_step tt t day (rt_base r) own) (List.seq (2 * f) c) (ts i r, st0)) in E2 end.
  destruct (fold_left (ev_step tt t day (rt_base r) own) (List.seq (2 * f) c) (ts i r, st0)) as [l st]. cbn [fst] in E2.
  destruct FE as (G1 & _ & G2 & G3).
  assert (ET : forall q, T' q = nth q (monotone (-32768) l) 0) by (intros q; unfold T'; now rewrite E3, E2).
  assert (LL : length l = (2 * n - 2)%nat) by (rewrite G1; exact HL).
  assert (RNG : forall q, (q < 2 * n - 2)%nat -> -32768 <= nth q l 0 <= 32767).
  { intros q Hq. destruct (Nat.lt_ge_cases q (2 * f)) as [H|H]; [rewrite G2 by lia; apply HT|].
    destruct (Nat.lt_ge_cases q (2 * f + c)) as [H'|H']; [|rewrite G2 by lia; apply HT].
    specialize (G3 q ltac:(lia)). destruct (latest own st0 (2 * f) (S q - 2 * f)); [|rewrite G3; apply HT].
    rewrite G3. apply clamp16_range. }
  assert (MONO : forall q, (q < 2 * n - 2)%nat -> nth q l 0 <= T' q).
  { intros q Hq. rewrite ET, monotone_step by lia. destruct q; lia. }
  assert (STEP : T' j = Z.max (nth j l 0) (match j with O => -32768 | S j' => T' j' end)).
  { rewrite ET, monotone_step by lia. destruct j as [|j']; [reflexivity|]. now rewrite ET. }
  unfold delay_in_force. fold st0.
  assert (IN : ((2 * f <=? j)%nat && (j <=? 2 * (f + m - 1))%nat = true) <-> (2 * f <= j < 2 * f + c)%nat).
  { rewrite andb_true_iff, !Nat.leb_le. unfold c. lia. }
  destruct ((2 * f <=? j)%nat && (j <=? 2 * (f + m - 1))%nat) eqn:EI.
  - specialize (G3 j (proj1 IN eq_refl)). destruct (latest own st0 (2 * f) (S j - 2 * f)) as [d|].
    + rewrite STEP, G3. set (s := s_event tt t day (ev_stop j) (ev_arr j) + d - rt_base r).
      destruct j as [|j']; cbn [lbound].
      * unfold clamp16, i16_min, i16_max. lia.
      * rewrite clamp16_max by (apply RNG; lia). pose proof (MONO j' ltac:(lia)). lia.
    + rewrite STEP, G3. unfold ts. fold (T j). lia.
  - rewrite STEP, G2; [unfold ts; fold (T j); lia|].
    destruct (Nat.lt_ge_cases j (2 * f)); [left; auto|]. right.
    destruct (Nat.lt_ge_cases j (2 * f + c)); [|lia]. destruct IN as [_ IN]. specialize (IN ltac:(lia)). discriminate.
Qed.

(** * Assignment by stop sequence numbers and by stop ids *)
Lemma id_find_nth l : NoDup l -> forall k, (k < length l)%nat -> id_find l (nth k l 0) = Some k.
Proof.
  induction 1 as [|y l Hy Hl IH]; intros k Hk; cbn [length] in Hk; [lia|]. destruct k as [|k]; cbn [nth id_find].
  - now rewrite Z.eqb_refl.
  - destruct (Z.eqb_spec y (nth k l 0)) as [E|_]; [exfalso; apply Hy; rewrite E; apply nth_In; lia|]. now rewrite IH by lia.
Qed.
Lemma id_find_some l s k : id_find l s = Some k -> (k < length l)%nat /\ nth k l 0 = s.
Proof.
  revert k; induction l as [|y l IH]; cbn [id_find]; intros k H; [discriminate|].
  destruct (Z.eqb_spec y s); [injection H as <-; cbn; split; [lia|auto]|].
  destruct (id_find l s) as [q|]; [|discriminate]. injection H as <-. destruct (IH q eq_refl). cbn [length nth]. split; [lia|auto].
Qed.
Definition pos_key (key : st_update -> option Z) (f : nat) (keys : list Z) (u : st_update) : option nat :=
  match key u with Some s => option_map (fun k => (f + k)%nat) (id_find keys s) | None => None end.
Lemma pos_key_spec key f keys u k : NoDup keys -> (k < length keys)%nat ->
  pos_key key f keys u = Some (f + k)%nat <-> key u = Some (nth k keys 0).
Proof.
  intros ND Hk. unfold pos_key. destruct (key u) as [s|]; [|split; discriminate]. split.
  - destruct (id_find keys s) as [q|] eqn:E; [|discriminate]. cbn [option_map]. intros H. injection H as H. 
    assert (q = k) by lia. subst q. apply id_find_some in E as [_ E]. now rewrite E.
  - intros H. injection H as ->. now rewrite id_find_nth.
Qed.
Lemma pos_key_bound key f keys u p : pos_key key f keys u = Some p -> (f <= p < f + length keys)%nat /\ key u = Some (nth (p - f) keys 0).
Proof.
  unfold pos_key. destruct (key u) as [s|]; [|discriminate]. destruct (id_find keys s) as [q|] eqn:E; [|discriminate].
  cbn [option_map]. intros H. injection H as <-. apply id_find_some in E as [E1 E2]. split; [lia|].
  replace (f + q - f)%nat with q by lia. now rewrite E2.
Qed.
Lemma increasing_intro pos us : forall lo hi,
  ForallOrdPairs (fun u v => forall p q, pos u = Some p -> pos v = Some q -> (p < q)%nat) us ->
  (forall u p, In u us -> pos u = Some p -> (lo <= p < hi)%nat) -> increasing pos lo hi us.
Proof.
  induction us as [|u us IH]; intros lo hi HO HB; cbn [increasing]; [exact I|]. inversion HO as [|a l H1 H2]; subst.
  destruct (pos u) as [p|] eqn:E.
  - split; [apply (HB u p); [now left|auto]|]. apply IH; [auto|]. intros v q Hv Eq.
    rewrite Forall_forall in H1. specialize (H1 v Hv p q eq_refl Eq). pose proof (HB v q (or_intror Hv) Eq). lia.
  - apply IH; auto. intros v q Hv. apply HB. now right.
Qed.
Lemma run_events_stop f m j : (0 < m)%nat -> (2 * f <= j)%nat -> (j <= 2 * (f + m - 1))%nat -> (f <= ev_stop j < f + m)%nat.
Proof.
  intros Hm H1 H2. unfold ev_stop. pose proof (Nat.div2_odd (S j)) as E. destruct (Nat.odd (S j)); cbn [Nat.b2n] in E; lia.
Qed.

(** The updates of stops named by a key (sequence number or stop id). *)
Definition update_for (key : st_update -> option Z) (us : list st_update) (s : Z) : option st_update :=
  find (fun u => match key u with Some s' => s' =? s | None => false end) us.
Definition own_delay (key : st_update -> option Z) (us : list st_update) (f : nat) (keys : list Z) (j : nat) : option Z :=
  match update_for key us (nth (ev_stop j - f) keys 0) with
  | Some u => carries u (ev_stop j) (ev_arr j)
  | None => None
  end.

Lemma delays_by_key key keys tt x i t day r seqs us :
  let n := length (s_seq tt t) in
  let f := r_from x in
  let m := length seqs in
  let r' := update_run_rt tt x i (s_seq tt t) r seqs us in
  let T j := nth j (nth i (rt_times r) []) 0 in
  let T' j := nth j (nth i (rt_times r') []) 0 in
  r_t x = Some (t, day) -> (2 <= n)%nat -> (0 < m)%nat -> (f + m <= n)%nat ->
  (i < length (rt_times r))%nat -> length (nth i (rt_times r) []) = (2 * n - 2)%nat ->
  32768 <= rt_base r -> (forall j, -32768 <= T j <= 32767) ->
  length keys = m -> NoDup keys ->
  (forall u k, In u us -> (k < m)%nat -> stop_matches tt x (s_seq tt t) u (f + k) (nth k seqs 0) = true <-> key u = Some (nth k keys 0)) ->
  ForallOrdPairs (fun u v => forall a b, (a < m)%nat -> (b < m)%nat -> key u = Some (nth a keys 0) -> key v = Some (nth b keys 0) -> (a < b)%nat) us ->
  (forall u, In u us -> delays_only u) ->
  (forall u k, In u us -> (k < m)%nat -> key u = Some (nth k keys 0) -> stop_applicable tt (s_seq tt t) u (f + k)) ->
  forall j, (j < 2 * n - 2)%nat ->
    T' j = Z.max (match j with O => -32768 | S j' => T' j' end)
                 (match delay_in_force (own_delay key us f keys) f m j with
                  | Some d => clamp16 (s_event tt t day (ev_stop j) (ev_arr j) + d - rt_base r)
                  | None => T j end).
Proof.
  intros n f m r' T T' HX HN Hm Hfm Hi HL HB HT EK ND HMk HO HD HA j Hj.
  pose proof (delays_generic tt x i t day r seqs us (pos_key key f keys)) as G. cbv zeta in G.
  fold n f m r' in G. fold (T j) in G.
  assert (E : forall q, (2 * f <= q)%nat -> (q <= 2 * (f + m - 1))%nat ->
    match find (at_pos (pos_key key f keys) (ev_stop q)) us with Some u => carries u (ev_stop q) (ev_arr q) | None => None end =
    own_delay key us f keys q).
  { intros q H1 H2. unfold own_delay, update_for. pose proof (run_events_stop f m q Hm H1 H2) as HR.
    assert (EE : forall u, at_pos (pos_key key f keys) (ev_stop q) u =
                           match key u with Some s' => s' =? nth (ev_stop q - f) keys 0 | None => false end).
    { intros u. unfold at_pos.
      pose proof (pos_key_spec key f keys u (ev_stop q - f) ND ltac:(lia)) as PS. replace (f + (ev_stop q - f))%nat with (ev_stop q) in PS by lia.
      destruct (pos_key key f keys u) as [p|].
      - destruct (Nat.eqb_spec p (ev_stop q)) as [->|Hn].
        + rewrite (proj1 PS eq_refl). now rewrite Z.eqb_refl.
        + destruct (key u) as [s|]; [|reflexivity]. destruct (Z.eqb_spec s (nth (ev_stop q - f) keys 0)) as [->|]; [|reflexivity].
          exfalso. apply Hn. destruct PS as [_ PS]. specialize (PS eq_refl). congruence.
      - destruct (key u) as [s|]; [|reflexivity]. destruct (Z.eqb_spec s (nth (ev_stop q - f) keys 0)) as [->|]; [|reflexivity].
        destruct PS as [_ PS]. specialize (PS eq_refl). discriminate. }
    assert (EF : forall l, find (at_pos (pos_key key f keys) (ev_stop q)) l =
                           find (fun u => match key u with Some s' => s' =? nth (ev_stop q - f) keys 0 | None => false end) l).
    { induction l as [|u l IHl]; cbn [find]; [reflexivity|]. rewrite EE. destruct (match key u with Some s' => _ | None => false end); auto. }
    now rewrite EF. }
  assert (E2 : forall own1 own2, (forall q, (2 * f <= q)%nat -> (q <= 2 * (f + m - 1))%nat -> own1 q = own2 q) ->
               delay_in_force own1 f m j = delay_in_force own2 f m j).
  { intros own1 own2 H. unfold delay_in_force. destruct ((2 * f <=? j)%nat && (j <=? 2 * (f + m - 1))%nat) eqn:EI; [|reflexivity].
    apply andb_true_iff in EI as [I1 I2]. apply Nat.leb_le in I1, I2. apply latest_ext. intros q Hq. apply H; lia. }
  rewrite <- (E2 _ _ E). apply G; auto.
  - intros u Hu k Hk. rewrite (HMk u k Hu Hk). symmetry. apply pos_key_spec; [auto|lia].
  - apply increasing_intro.
    + clear - HO EK. induction HO as [|u l H1 H2 IH]; constructor; [|exact IH].
      rewrite Forall_forall in *. intros v Hv p q Ep Eq. apply pos_key_bound in Ep as [Bp Kp], Eq as [Bq Kq].
      specialize (H1 v Hv (p - f)%nat (q - f)%nat ltac:(lia) ltac:(lia) Kp Kq). lia.
    + intros u p Hu Ep. apply pos_key_bound in Ep as [Bp _]. lia.
  - intros k u Eu. apply find_some in Eu as [Hu Eu]. unfold at_pos in Eu. destruct (pos_key key f keys u) as [p|] eqn:Ep; [|discriminate].
    apply Nat.eqb_eq in Eu as ->. apply pos_key_bound in Ep as [Bp Kp].
    replace k with (f + (k - f))%nat by lia. apply HA; auto. lia.
Qed.

Lemma StronglySorted_lt_nth l : StronglySorted Z.lt l -> forall a b, (a < b < length l)%nat -> nth a l 0 < nth b l 0.
Proof.
  induction 1 as [|y l Hl IH Hy]; intros a b Hab; cbn [length] in Hab; [lia|]. destruct b as [|b]; [lia|]. destruct a as [|a]; cbn [nth].
  - rewrite Forall_forall in Hy. apply Hy. apply nth_In. lia.
  - apply IH. lia.
Qed.
Lemma StronglySorted_lt_NoDup l : StronglySorted Z.lt l -> NoDup l.
Proof.
  induction 1 as [|y l Hl IH Hy]; constructor; auto. intros H. rewrite Forall_forall in Hy. specialize (Hy y H). lia.
Qed.

(** Updates identified by stop sequence number, in increasing order; entries with unknown numbers are ignored; a stop id, if
    given, is not the id of another stop of the trip.  Then for every event of the vehicle the new time is the scheduled time
    plus the delay in force (the latest entry of the run at or before the event), and where no delay is in force the previous
    time, in both cases raised to the new time of the preceding event.  (Times relative to the base day, saturated at 16 bit.) *)
Theorem C34_delays_by_stop_sequence :
  forall tt x i t day r seqs us,
    let n := length (s_seq tt t) in
    let f := r_from x in
    let m := length seqs in
    let r' := update_run_rt tt x i (s_seq tt t) r seqs us in
    let T j := nth j (nth i (rt_times r) []) 0 in
    let T' j := nth j (nth i (rt_times r') []) 0 in
    r_t x = Some (t, day) -> (2 <= n)%nat -> (0 < m)%nat -> (f + m <= n)%nat ->
    (i < length (rt_times r))%nat -> length (nth i (rt_times r) []) = (2 * n - 2)%nat ->
    32768 <= rt_base r -> (forall j, -32768 <= T j <= 32767) ->
    StronglySorted Z.lt seqs ->
    ForallOrdPairs (fun u v => forall a b, u_seq u = Some a -> u_seq v = Some b -> a < b) us ->
    (forall u k id, In u us -> (k < m)%nat -> u_stop_id u = Some id -> id = s_loc_id tt (loc_at (s_seq tt t) (f + k)) -> u_seq u = Some (nth k seqs 0)) ->
    (forall u, In u us -> delays_only u) ->
    (forall u k, In u us -> (k < m)%nat -> u_seq u = Some (nth k seqs 0) -> stop_applicable tt (s_seq tt t) u (f + k)) ->
    forall j, (j < 2 * n - 2)%nat ->
      T' j = Z.max (match j with O => -32768 | S j' => T' j' end)
                   (match delay_in_force (own_delay u_seq us f seqs) f m j with
                    | Some d => clamp16 (s_event tt t day (ev_stop j) (ev_arr j) + d - rt_base r)
                    | None => T j end).
Proof.
  intros tt x i t day r seqs us n f m r' T T' HX HN Hm Hfm Hi HL HB HT HS HO HID HD HA.
  pose proof (StronglySorted_lt_NoDup seqs HS) as ND.
  apply (delays_by_key u_seq seqs tt x i t day r seqs us); auto.
  - intros u k Hu Hk. unfold stop_matches, scheduled. rewrite HX. cbn [andb]. rewrite orb_true_iff. split.
    + intros [H|H].
      * destruct (u_seq u) as [s|]; [|discriminate]. apply Z.eqb_eq in H. now subst s.
      * destruct (u_stop_id u) as [id|] eqn:Eid; [|discriminate]. apply Z.eqb_eq in H. eapply HID; eauto.
    + intros ->. left. apply Z.eqb_refl.
  - clear - HO HS. induction HO as [|u l H1 H2 IH]; constructor; [|exact IH]. rewrite Forall_forall in *.
    intros v Hv a b Ha Hb Eu Ev. specialize (H1 v Hv _ _ Eu Ev).
    destruct (Nat.lt_trichotomy a b) as [|[->|Hba]]; [auto|lia|].
    pose proof (StronglySorted_lt_nth seqs HS b a ltac:(lia)). lia.
Qed.

(** Updates identified by stop id only (every stop of the trip has its own id), in travel order. *)
Theorem C34_delays_by_stop_id :
  forall tt x i t day r seqs us,
    let n := length (s_seq tt t) in
    let f := r_from x in
    let m := length seqs in
    let ids := map (fun k => s_loc_id tt (loc_at (s_seq tt t) (f + k))) (List.seq 0 m) in
    let r' := update_run_rt tt x i (s_seq tt t) r seqs us in
    let T j := nth j (nth i (rt_times r) []) 0 in
    let T' j := nth j (nth i (rt_times r') []) 0 in
    r_t x = Some (t, day) -> (2 <= n)%nat -> (0 < m)%nat -> (f + m <= n)%nat ->
    (i < length (rt_times r))%nat -> length (nth i (rt_times r) []) = (2 * n - 2)%nat ->
    32768 <= rt_base r -> (forall j, -32768 <= T j <= 32767) ->
    NoDup ids -> (forall u, In u us -> u_seq u = None) ->
    ForallOrdPairs (fun u v => forall a b, (a < m)%nat -> (b < m)%nat ->
      u_stop_id u = Some (nth a ids 0) -> u_stop_id v = Some (nth b ids 0) -> (a < b)%nat) us ->
    (forall u, In u us -> delays_only u /\ u_assigned u = None) ->
    forall j, (j < 2 * n - 2)%nat ->
      T' j = Z.max (match j with O => -32768 | S j' => T' j' end)
                   (match delay_in_force (own_delay u_stop_id us f ids) f m j with
                    | Some d => clamp16 (s_event tt t day (ev_stop j) (ev_arr j) + d - rt_base r)
                    | None => T j end).
Proof.
  intros tt x i t day r seqs us n f m ids r' T T' HX HN Hm Hfm Hi HL HB HT ND HNS HO HD.
  assert (NI : forall k, (k < m)%nat -> nth k ids 0 = s_loc_id tt (loc_at (s_seq tt t) (f + k))).
  { intros k Hk. unfold ids. rewrite (nth_indep _ 0 (s_loc_id tt (loc_at (s_seq tt t) (f + 0)))) by (rewrite map_length, seq_length; auto).
    rewrite (map_nth (fun k => s_loc_id tt (loc_at (s_seq tt t) (f + k)))). now rewrite seq_nth. }
  apply (delays_by_key u_stop_id ids tt x i t day r seqs us); auto.
  - unfold ids. now rewrite map_length, seq_length.
  - intros u k Hu Hk. rewrite (NI k Hk). unfold stop_matches. rewrite (HNS u Hu), andb_false_r. cbn [orb].
    destruct (u_stop_id u) as [s|]; [|split; discriminate]. rewrite Z.eqb_eq. split; [now intros ->|intros H; now injection H].
  - intros u Hu. now apply HD.
  - intros u k Hu Hk E. right. left. split; [now apply HD|]. right. now rewrite E, (NI k Hk).
Qed.

(** Consequences of the equation above for times that are ordered before the update: nothing changes before the first entry of the
    trip if the trip starts the vehicle's run, and nothing before the trip. *)
Theorem C34_before_first_entry_unchanged :
  forall (T T' : nat -> Z) (own : nat -> option Z) (s : nat -> Z) base f m J,
    (forall j, (j < J)%nat -> T' j = Z.max (match j with O => -32768 | S j' => T' j' end)
                                       (match delay_in_force own f m j with Some d => clamp16 (s j + d - base) | None => T j end)) ->
    (forall j, (j < J)%nat -> -32768 <= T j) -> (forall j, (S j < J)%nat -> T j <= T (S j)) ->
    (forall j, (j < J)%nat -> own j = None \/ (j < 2 * f)%nat) -> (f = 0%nat \/ J <= 2 * f)%nat ->
    forall j, (j < J)%nat -> T' j = T j.
Proof.
  intros T T' own s base f m J HE HR HS HO HF.
  assert (N : forall j, (j < J)%nat -> delay_in_force own f m j = None).
  { intros j Hj. unfold delay_in_force. destruct HF as [->|HF].
    - cbn [Nat.eqb]. destruct ((2 * 0 <=? j)%nat && (j <=? 2 * (0 + m - 1))%nat); [|reflexivity].
      assert (L : forall c, (c <= J)%nat -> latest own None 0 c = None).
      { induction c as [|c IHc]; intros Hc; cbn [latest]; [reflexivity|]. destruct (HO c ltac:(lia)) as [E|E]; [|lia].
        replace (0 + c)%nat with c by lia. rewrite E. apply IHc. lia. }
      apply L. lia.
    - destruct (Nat.leb_spec (2 * f) j); [lia|reflexivity]. }
  induction j as [|j IH]; intros Hj.
  - rewrite HE, N by auto. specialize (HR 0%nat Hj). lia.
  - rewrite HE, N by auto. rewrite IH by lia. specialize (HS j Hj). lia.
Qed.

(** A trip of 4 stops; the entry for stop 2 delays its departure by 5 minutes, stop 4 reports an arrival delay of 2 minutes. *)
Definition exd_word (l : nat) : Z := stop_value (stop_make (Z.of_nat l) true true true true).
Definition exd_stt : stt :=
  mk_stt [] [] (fun _ => [exd_word 0; exd_word 1; exd_word 2; exd_word 3])
    (fun t d s arr => 100000 + 10 * Z.of_nat s) (fun l => Z.of_nat l) (fun s => Some (Z.to_nat s)) (fun l => [l]).
Definition exd_r : rtt :=
  mk_rtt [] [] 100000 [] [inl (0%nat, 0)] (fun _ => []) (fun _ => []) [[0; 10; 10; 20; 20; 30]]
    [[exd_word 0; exd_word 1; exd_word 2; exd_word 3]] [false].
Definition exd_us : list st_update :=
  [mk_stu (Some 2) None None (Some (mk_ste (Some 300) None)) false None;
   mk_stu (Some 3) None None None false None;
   mk_stu (Some 9) None (Some (mk_ste (Some 900) None)) None false None].
Example C34_example :
  let x := mk_run (Some (0%nat, 0)) 0 4 (Some 0%nat) in
  nth 0 (rt_times (update_run_rt exd_stt x 0 (s_seq exd_stt 0) exd_r [1; 2; 3; 4] exd_us)) [] = [0; 10; 15; 25; 25; 35] /\
  map (delay_in_force (own_delay u_seq exd_us 0 [1; 2; 3; 4]) 0 4) (List.seq 0 6) = [None; None; Some 5; Some 5; Some 5; Some 5] /\
  StronglySorted Z.lt [1; 2; 3; 4] /\
  ForallOrdPairs (fun u v => forall a b, u_seq u = Some a -> u_seq v = Some b -> a < b) exd_us /\
  (forall u, In u exd_us -> delays_only u) /\
  (forall u k, In u exd_us -> (k < 4)%nat -> u_seq u = Some (nth k [1; 2; 3; 4] 0) -> stop_applicable exd_stt (s_seq exd_stt 0) u (0 + k)).
Proof.
  split; [vm_compute; reflexivity|]. split; [vm_compute; reflexivity|].
  split; [repeat constructor|]. split.
  { repeat constructor; cbn; intros a b Ha Hb; injection Ha as <-; injection Hb as <-; lia. }
  split.
  - intros u [<-|[<-|[<-|[]]]] e [H|H]; cbn in H; try discriminate; injection H as <-; cbn;
      (split; [discriminate|]); intros d Hd; injection Hd as <-; vm_compute; split; discriminate.
  - intros u k [<-|[<-|[<-|[]]]] _ _; right; left; cbn; auto.
Qed.
(** The second trip of a vehicle (stops 2 to 3): without entries it is reset to its schedule, raised to the arrival before. *)
Example C34_through_example :
  let x := mk_run (Some (0%nat, 0)) 2 4 (Some 0%nat) in
  let r := set_times exd_r 0 [0; 10; 10; 27; 40; 60] in
  nth 0 (rt_times (update_run_rt exd_stt x 0 (s_seq exd_stt 0) r [1; 2] [])) [] = [0; 10; 10; 27; 27; 30].
Proof. vm_compute. reflexivity. Qed.

(** A failed stop assignment drops the delay of the stop: the update for stop 2 carries 5 minutes for its departure but is skipped
    because the assigned stop is unknown; the delay is lost for that stop and all later ones. *)
Theorem C34_failed_assignment_loses_delay_refuted :
  exists tt x i r seqs us u,
    In u us /\ delays_only u /\ carries u 1 false = Some 5 /\ u_seq u = Some 2 /\ nth 1 seqs 0 = 2 /\
    nth i (rt_times (update_run_rt tt x i (s_seq tt 0) r seqs us)) [] = nth i (rt_times r) [].
Proof.
  exists (mk_stt [] [] (s_seq exd_stt) (s_event exd_stt) (s_loc_id exd_stt) (fun _ => None) (s_equiv exd_stt)),
    (mk_run (Some (0%nat, 0)) 0 4 (Some 0%nat)), 0%nat, exd_r, [1; 2; 3; 4],
    [mk_stu (Some 2) None None (Some (mk_ste (Some 300) None)) false (Some 77)],
    (mk_stu (Some 2) None None (Some (mk_ste (Some 300) None)) false (Some 77)).
  split; [now left|]. split.
  { intros e [H|H]; cbn in H; [discriminate|]. injection H as <-. cbn. split; [discriminate|]. intros d Hd. injection Hd as <-.
    vm_compute. split; discriminate. }
  split; [reflexivity|]. split; [reflexivity|]. split; [reflexivity|]. vm_compute. reflexivity.
Qed.
(** ... and the delay announced for an earlier stop skips that stop but is applied again after it: 5 minutes at the first stop, the second
    stop punctual, 5 minutes from the third stop on. *)
Theorem C34_failed_assignment_gap_refuted :
  exists tt x r us, nth 0 (rt_times r) [] = [0; 10; 10; 20; 20; 30] /\
    map u_seq us = [Some 1; Some 2] /\ map (fun u => carries u 0 false) us = [Some 5; Some 10] /\
    nth 0 (rt_times (update_run_rt tt x 0 (s_seq tt 0) r [1; 2; 3; 4] us)) [] = [5; 10; 10; 25; 25; 35].
Proof.
  exists (mk_stt [] [] (s_seq exd_stt) (s_event exd_stt) (s_loc_id exd_stt) (fun _ => None) (s_equiv exd_stt)), (mk_run (Some (0%nat, 0)) 0 4 (Some 0%nat)), exd_r,
    [mk_stu (Some 1) None None (Some (mk_ste (Some 300) None)) false None; mk_stu (Some 2) None None (Some (mk_ste (Some 600) None)) false (Some 77)].
  split; [reflexivity|]. split; [reflexivity|]. split; [reflexivity|]. vm_compute. reflexivity.
Qed.
Print Assumptions C34_delays_by_stop_sequence.
Print Assumptions C34_delays_by_stop_id.
