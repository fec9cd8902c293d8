(** C34 for whole messages after an arbitrary history: which vehicle changes, where its previous times come from. *)
From Coq Require Import List ZArith Lia Bool Arith Sorted.
From Verif Require Import Base Time_Model Calendar_Model Query_Model Rt_Model Rt_Proofs P_Rt P_RtDelay.
Import ListNotations.
Local Open Scope Z_scope.

(** * Every stored time fits 16 bit *)
Definition ranged (r : rtt) : Prop := forall i j, -32768 <= nth j (nth i (rt_times r) []) 0 <= 32767.

Lemma ranged_ext r r' : rt_times r' = rt_times r -> ranged r -> ranged r'.
Proof. intros E H i j. rewrite E. apply H. Qed.
Lemma ranged_set_times r i ts : ranged r -> (forall j, -32768 <= nth j ts 0 <= 32767) -> ranged (set_times r i ts).
Proof.
  intros H Hts a j. cbn [set_times rt_times]. rewrite nth_set_nth.
  destruct (Nat.eqb i a && Nat.ltb i (length (rt_times r))); auto.
Qed.
Lemma ranged_update_time r i k a t : ranged r -> ranged (update_time r i k a t).
Proof.
  intros H. unfold update_time. apply ranged_set_times; [exact H|]. intros j. rewrite nth_set_nth.
  destruct (Nat.eqb _ j && _); [apply clamp16_range|apply H].
Qed.
Section Loop.
  Variables (tt : stt) (x : run) (i : nat) (lseq : list Z).
  Lemma ranged_update_delay r k a d m : ranged r -> ranged (fst (update_delay tt r x i k a d m)).
  Proof. intros H. unfold update_delay. cbn [fst]. now apply ranged_update_time. Qed.
  Lemma ranged_update_event r k a e p : ranged r -> ranged (fst (update_event tt r x i k a e p)).
  Proof.
    intros H. unfold update_event. destruct (e_delay e), (r_t x); try now apply ranged_update_delay; cbn [fst]; now apply ranged_update_time.
    all: cbn [fst]; now apply ranged_update_time.
  Qed.
  Lemma ranged_propagate r k a pred : ranged r ->
    ranged (fst (match pred with
                    | Some p => let (r', p') := update_delay tt r x i k a (snd p) (Some (fst p)) in (r', Some p')
                    | None => (r, pred) end)).
  Proof.
    intros H. destruct pred as [p|]; [|exact H].
    pose proof (ranged_update_delay r k a (snd p) (Some (fst p)) H) as H1.
    destruct (update_delay tt r x i k a (snd p) (Some (fst p))). exact H1.
  Qed.
  Lemma ranged_arrival r u k pred : ranged r -> ranged (fst (update_arrival tt x i r u k pred)).
  Proof.
    intros H. unfold update_arrival. destruct (Nat.eqb k (r_from x)); [exact H|].
    destruct u as [v|]; [|now apply ranged_propagate]. destruct (u_info (u_arr v)); [|now apply ranged_propagate].
    destruct (u_arr v) as [e|]; [|exact H].
    pose proof (ranged_update_event r k true e (Some (fallback_pred r i pred k true)) H) as H1.
    destruct (update_event _ _ _ _ _ _ _ _). exact H1.
  Qed.
  Lemma ranged_departure r u k pred : ranged r -> ranged (fst (update_departure tt x i lseq r u k pred)).
  Proof.
    intros H. unfold update_departure.
    match goal with |- context [if ?c then _ else _] => destruct c end.
    - destruct u as [v|]; [|exact H]. destruct (u_arr v) as [e|]; [|exact H].
      pose proof (ranged_update_event r k false e (Some 0) H) as H1. destruct (update_event _ _ _ _ _ _ _ _). exact H1.
    - destruct (Nat.eqb k (length lseq - 1)); [exact H|].
      destruct u as [v|]; [|now apply ranged_propagate]. destruct (u_info (u_dep v)); [|now apply ranged_propagate].
      destruct (u_dep v) as [e|]; [|exact H].
      pose proof (ranged_update_event r k false e (Some (fallback_pred r i pred k false)) H) as H1.
      destruct (update_event _ _ _ _ _ _ _ _). exact H1.
  Qed.
  Lemma update_stop_times r u k r' : update_stop tt i lseq r u k = Some r' -> rt_times r' = rt_times r.
  Proof.
    unfold update_stop. intros H.
    destruct (u_skipped u); [injection H as <-; reflexivity|].
    destruct (u_assigned u) as [a|].
    - destruct (s_find_loc tt a) as [l|]; [|discriminate].
      destruct (existsb _ _); [|discriminate]. injection H as <-. reflexivity.
    - match goal with H : match ?c with true => _ | false => _ end = _ |- _ => destruct c end.
      + destruct (s_find_loc tt _) as [l|]; [|discriminate].
        destruct (existsb _ _); [|discriminate]. injection H as <-. reflexivity.
      + injection H as <-. reflexivity.
  Qed.
  Lemma ranged_stop_loop seqs : forall k us r pred, ranged r -> ranged (stop_loop tt x i lseq seqs k us r pred).
  Proof.
    induction seqs as [|s seqs IH]; intros k us r pred H; cbn [stop_loop]; [exact H|].
    destruct (next_update tt x lseq us k (s :: seqs)) as [us1 m] eqn:E.
    assert (P : forall u us2 r1, ranged r1 ->
      ranged (let (r2, pred2) := update_arrival tt x i r1 u k pred in
                  let (r3, pred3) := update_departure tt x i lseq r2 u k pred2 in
                  stop_loop tt x i lseq seqs (S k) us2 r3 pred3)).
    { intros u us2 r1 H1. pose proof (ranged_arrival r1 u k pred H1) as HA.
      destruct (update_arrival tt x i r1 u k pred) as [r2 p2]. cbn [fst] in HA.
      pose proof (ranged_departure r2 u k p2 HA) as HD.
      destruct (update_departure tt x i lseq r2 u k p2) as [r3 p3]. cbn [fst] in HD.
      now apply IH. }
    destruct us1 as [|u us2]; [now apply P|]. destruct m; [|now apply P].
    destruct (update_stop tt i lseq r u k) as [r1|] eqn:ES; [|now apply IH].
    apply P. eapply ranged_ext; [eapply update_stop_times; exact ES|exact H].
  Qed.
  Lemma monotone_range ts : forall p, -32768 <= p <= 32767 -> (forall j, -32768 <= nth j ts 0 <= 32767) ->
    forall j, -32768 <= nth j (monotone p ts) 0 <= 32767.
  Proof.
    induction ts as [|t ts IH]; intros p Hp H j; cbn [monotone]; [destruct j; cbn; lia|].
    pose proof (H 0%nat) as H0. cbn [nth] in H0.
    assert (Q : -32768 <= (if t <? p then p else t) <= 32767) by (destruct (t <? p); auto).
    destruct j as [|j]; cbn [nth]; [exact Q|]. apply IH; [exact Q|]. intros q. exact (H (S q)).
  Qed.
  Lemma ranged_update_run r seqs us : ranged r -> ranged (update_run_rt tt x i lseq r seqs us).
  Proof.
    intros H. destruct (update_run_rt_frame tt x i lseq r seqs us) as (F1 & _). eapply ranged_ext; [exact F1|].
    unfold before_cancel. apply ranged_set_times.
    - now apply ranged_stop_loop.
    - apply monotone_range; [lia|]. intros j. now apply ranged_stop_loop.
  Qed.
End Loop.

Lemma copy_times_range n : forall k sl dep arr,
  (forall q, -32768 <= dep q <= 32767) -> (forall q, -32768 <= arr q <= 32767) ->
  forall j, -32768 <= nth j (copy_times n k sl dep arr) 0 <= 32767.
Proof.
  induction n as [|n IH]; intros k sl dep arr Hd Ha j; cbn [copy_times]; [destruct j; cbn; lia|].
  destruct j as [|[|j]]; cbn [nth]; auto. destruct (sl <=? S k + 1)%nat; [|now apply IH].
  destruct (Nat.lt_ge_cases j (2 * n)) as [L|L].
  - rewrite nth_repeat. lia.
  - rewrite nth_overflow by (rewrite repeat_length; lia). lia.
Qed.
Lemma ranged_app r r' ts : rt_times r' = rt_times r ++ [ts] -> ranged r -> (forall j, -32768 <= nth j ts 0 <= 32767) -> ranged r'.
Proof.
  intros E H Hts a j. rewrite E. destruct (Nat.lt_ge_cases a (length (rt_times r))) as [L|L].
  - rewrite app_nth1 by auto. apply H.
  - rewrite app_nth2 by auto. destruct (a - length (rt_times r))%nat as [|[|q]]; cbn [nth]; [apply Hts| |]; destruct j; cbn; lia.
Qed.
Lemma ranged_add_scheduled tt r src t : ranged r -> ranged (fst (add_rt_transport tt r src (Some t) [] [] None)).
Proof.
  intros H. unfold add_rt_transport. destruct t as [ti day]. cbn [fst].
  eapply ranged_app; [reflexivity|exact H|]. apply copy_times_range; intros q; apply clamp16_range.
Qed.
Lemma ranged_add_new tt r src stops m id : ranged r -> ranged (fst (add_rt_transport tt r src None stops (repeat 0 m) (Some id))).
Proof.
  intros H. unfold add_rt_transport. cbn [fst]. eapply ranged_app; [reflexivity|exact H|].
  intros j. assert (E2 : forall l : list Z, match l with [] => l | _ :: _ => l end = l) by (intros []; auto). rewrite E2.
  destruct (Nat.lt_ge_cases j m) as [L|L].
  - rewrite nth_repeat. lia.
  - rewrite nth_overflow by (rewrite repeat_length; lia). lia.
Qed.

(** * Twins have the stops of their scheduled vehicle *)
Definition twin_len (tt : stt) (r : rtt) : Prop :=
  forall t d i, lookup_find (rt_lookup r) (t, d) = Some i ->
    (i < length (rt_stops r))%nat /\ length (nth i (rt_stops r) []) = length (s_seq tt t).
Lemma touch_stop_length i r r' : touch i r r' -> forall j, length (nth j (rt_stops r') []) = length (nth j (rt_stops r) []).
Proof. intros T j. destruct T. destruct (Nat.eq_dec j i) as [->|Hj]; [auto|now rewrite tc_stops]. Qed.
Lemma twin_len_update tt x i lseq r seqs us : twin_len tt r -> twin_len tt (update_run_rt tt x i lseq r seqs us).
Proof.
  intros H t d j Hl. destruct (update_run_rt_frame tt x i lseq r seqs us) as (F1 & F2 & F3 & F4 & _).
  rewrite F4 in Hl. rewrite F2. destruct (H t d j Hl) as [A B].
  pose proof (touch_before_cancel tt x i lseq r seqs us) as T. rewrite (touch_stop_length _ _ _ T). destruct T. split; [lia|exact B].
Qed.

Record msg_inv (tt : stt) (base : Z) (r : rtt) : Prop := mk_msg_inv {
  mi_inv : rt_inv r; mi_ranged : ranged r; mi_twin : twin_len tt r; mi_base : rt_base r = base }.

(** What the first message about a vehicle adds: the scheduled times. *)
Lemma copy_times_nth n : forall k sl (dep arr : nat -> Z) j, (k + n + 1 = sl)%nat -> (j < 2 * n)%nat ->
  nth j (copy_times n k sl dep arr) 0 = (if ev_arr j then arr else dep) (k + ev_stop j)%nat.
Proof.
  induction n as [|n IH]; intros k sl dep arr j Hk Hj; [lia|]. cbn [copy_times].
  destruct j as [|[|j]]; cbn [nth].
  - unfold ev_arr, ev_stop. cbn. f_equal. lia.
  - unfold ev_arr, ev_stop. cbn. f_equal. lia.
  - assert (E : (sl <=? S k + 1)%nat = false) by (apply Nat.leb_gt; lia). rewrite E.
    rewrite IH by lia. unfold ev_arr, ev_stop.
    change (Nat.odd (S (S j))) with (Nat.odd j). cbn [Nat.div2]. destruct (Nat.odd j); f_equal; cbn; lia.
Qed.
Lemma add_scheduled_times tt r src t day :
  length (rt_times r) = length (rt_static r) -> length (rt_stops r) = length (rt_static r) -> (2 <= length (s_seq tt t))%nat ->
  let (r', i) := add_rt_transport tt r src (Some (t, day)) [] [] None in
  nth i (rt_stops r') [] = s_seq tt t /\
  (lookup_find (rt_lookup r) (t, day) = None -> lookup_find (rt_lookup r') (t, day) = Some i) /\
  forall j, (j < 2 * length (s_seq tt t) - 2)%nat ->
    nth j (nth i (rt_times r') []) 0 = clamp16 (s_event tt t day (ev_stop j) (ev_arr j) - rt_base r).
Proof.
  intros A B H. unfold add_rt_transport. cbn [rt_times rt_stops rt_lookup].
  rewrite !app_nth2 by lia. rewrite A, B, Nat.sub_diag. cbn [nth]. split; [reflexivity|]. split.
  - intros N. unfold lookup_emplace. rewrite N. rewrite lookup_find_app by exact N.
    destruct (transport_eqb_spec (t, day) (t, day)); [reflexivity|congruence].
  - intros j Hj. rewrite copy_times_nth by lia. cbn [Nat.add]. unfold rt_unix_to_delta. now destruct (ev_arr j).
Qed.

Lemma apply_msg_mi tt base m r : msg_inv tt base r -> msg_inv tt base (apply_msg tt r m).
Proof.
  intros [RI RG TL RB]. pose proof (apply_msg_inv tt m r RI) as RI'. destruct RI as [A B C D E].
  constructor; [exact RI'| | |]; clear RI'; destruct m as [src t from to seqs us|src lid tid stops us|src t from to]; cbn [apply_msg].
  - unfold resolve_rt_run. cbn [r_t r_from r_to]. unfold resolve_rt. destruct (lookup_find (rt_lookup r) t) as [i|]; unfold update_scheduled; cbn [r_t r_rt r_from r_to].
    + apply ranged_update_run. exact RG.
    + pose proof (ranged_add_scheduled tt r src t RG) as H. destruct (add_rt_transport tt r src (Some t) [] [] None) as [r1 i].
      now apply ranged_update_run.
  - unfold update_added. destruct (r_rt _) as [i|].
    + apply ranged_update_run. exact RG.
    + pose proof (ranged_add_new tt r src stops (2 * length stops - 2) tid RG) as H.
      destruct (add_rt_transport tt r src None stops _ (Some tid)) as [r1 i]. now apply ranged_update_run.
  - destruct (cancel_run_frame tt r (resolve_rt_run r (mk_run (Some t) from to None) 0 src)) as (F1 & _). eapply ranged_ext; eauto.
  - unfold resolve_rt_run. cbn [r_t r_from r_to]. unfold resolve_rt. destruct (lookup_find (rt_lookup r) t) as [i|] eqn:El; unfold update_scheduled; cbn [r_t r_rt r_from r_to].
    + apply twin_len_update. exact TL.
    + pose proof (add_frame tt r src (Some t) [] [] None A B) as F.
      assert (L : let (r', i) := add_rt_transport tt r src (Some t) [] [] None in
                  rt_lookup r' = rt_lookup r ++ [(t, i)] /\ nth i (rt_stops r') [] = s_seq tt (fst t)).
      { unfold add_rt_transport. destruct t as [ti day]. cbn [rt_lookup rt_stops fst]. unfold lookup_emplace.
        change (@lookup_find) with lookup_find. rewrite El. split; [reflexivity|].
        rewrite app_nth2 by lia. rewrite B, Nat.sub_diag. reflexivity. }
      destruct (add_rt_transport tt r src (Some t) [] [] None) as [r1 i]. destruct F as (F1 & F2 & F3 & F4 & F5 & F6). destruct L as [L1 L2].
      apply twin_len_update. intros t' d' j Hl. rewrite L1, lookup_find_app in Hl by exact El.
      destruct (transport_eqb_spec t (t', d')) as [->|Hn].
      * injection Hl as <-. split; [lia|]. rewrite L2. reflexivity.
      * destruct (TL t' d' j Hl) as [T1 T2]. split; [lia|]. destruct (F6 j ltac:(lia)) as [_ ->]. exact T2.
  - unfold update_added. destruct (r_rt _) as [i|].
    + apply twin_len_update. exact TL.
    + pose proof (add_frame tt r src None stops (repeat 0 (2 * length stops - 2)) (Some tid) A B) as F.
      assert (L : rt_lookup (fst (add_rt_transport tt r src None stops (repeat 0 (2 * length stops - 2)) (Some tid))) = rt_lookup r) by reflexivity.
      destruct (add_rt_transport tt r src None stops _ (Some tid)) as [r1 i]. destruct F as (F1 & F2 & F3 & F4 & F5 & F6). cbn [fst] in L.
      apply twin_len_update. intros t' d' j Hl. rewrite L in Hl. destruct (TL t' d' j Hl) as [T1 T2]. split; [lia|].
      destruct (F6 j ltac:(lia)) as [_ ->]. exact T2.
  - destruct (cancel_run_frame tt r (resolve_rt_run r (mk_run (Some t) from to None) 0 src)) as (F1 & F2 & F3 & F4 & _).
    intros t' d' j. rewrite F2, F4. apply TL.
  - unfold resolve_rt_run. cbn [r_t r_from r_to]. unfold resolve_rt. destruct (lookup_find (rt_lookup r) t) as [i|]; unfold update_scheduled; cbn [r_t r_rt r_from r_to].
    + destruct (update_run_rt_frame tt (mk_run (Some t) from to (Some i)) i (s_seq tt (fst t)) (set_cancelled r i false) seqs us) as (_ & _ & -> & _). exact RB.
    + pose proof (add_frame tt r src (Some t) [] [] None A B) as F. destruct (add_rt_transport tt r src (Some t) [] [] None) as [r1 i].
      destruct F as (F1 & F2 & F3 & F4 & F5 & F6).
      destruct (update_run_rt_frame tt (mk_run (Some t) from to (Some i)) i (s_seq tt (fst t)) r1 seqs us) as (_ & _ & -> & _). congruence.
  - unfold update_added. destruct (r_rt _) as [i|].
    + match goal with |- context [update_run_rt tt ?x i ?l ?r ?s us] => destruct (update_run_rt_frame tt x i l r s us) as (_ & _ & -> & _) end. exact RB.
    + pose proof (add_frame tt r src None stops (repeat 0 (2 * length stops - 2)) (Some tid) A B) as F.
      destruct (add_rt_transport tt r src None stops _ (Some tid)) as [r1 i]. destruct F as (F1 & F2 & F3 & F4 & F5 & F6).
      match goal with |- context [update_run_rt tt ?x i ?l ?r ?s us] => destruct (update_run_rt_frame tt x i l r s us) as (_ & _ & -> & _) end. congruence.
  - destruct (cancel_run_frame tt r (resolve_rt_run r (mk_run (Some t) from to None) 0 src)) as (_ & _ & F3 & _). congruence.
Qed.
Lemma apply_msgs_mi tt base ms : forall r, msg_inv tt base r -> msg_inv tt base (apply_msgs tt ms r).
Proof.
  induction ms as [|m ms IH]; intros r H; [exact H|]. cbn [apply_msgs fold_left]. apply IH. now apply apply_msg_mi.
Qed.
Lemma create_mi tt base : msg_inv tt base (create_rt_timetable tt base).
Proof.
  constructor; [apply create_inv| | |reflexivity].
  - intros [|i] [|j]; cbn; lia.
  - intros t d i H. discriminate H.
Qed.

(** * The theorem *)
(** Whatever messages came before: after an update of trip (t, day) the vehicle has a real-time twin [i]; its times are the
    scheduled times plus the delay in force, and where no delay is in force the times of the twin before the message - or the
    scheduled times, if there was no twin -, raised to the time of the preceding event.  No other vehicle changes. *)
Theorem C34_message_by_stop_sequence :
  forall tt base ms src t day from to seqs us,
    let r := apply_msgs tt ms (create_rt_timetable tt base) in
    let r' := apply_msg tt r (M_update src (t, day) from to seqs us) in
    let n := length (s_seq tt t) in
    let m := length seqs in
    let before j := match resolve_rt r (t, day) with
                    | Some i => nth j (nth i (rt_times r) []) 0
                    | None => clamp16 (s_event tt t day (ev_stop j) (ev_arr j) - base)
                    end in
    32768 <= base -> (2 <= n)%nat -> (0 < m)%nat -> (from + m <= n)%nat ->
    StronglySorted Z.lt seqs ->
    ForallOrdPairs (fun u v => forall a b, u_seq u = Some a -> u_seq v = Some b -> a < b) us ->
    (forall u k id, In u us -> (k < m)%nat -> u_stop_id u = Some id -> id = s_loc_id tt (loc_at (s_seq tt t) (from + k)) -> u_seq u = Some (nth k seqs 0)) ->
    (forall u, In u us -> delays_only u) ->
    (forall u k, In u us -> (k < m)%nat -> u_seq u = Some (nth k seqs 0) -> stop_applicable tt (s_seq tt t) u (from + k)) ->
    exists i, resolve_rt r' (t, day) = Some i /\
      (let after j := nth j (nth i (rt_times r') []) 0 in
       forall j, (j < 2 * n - 2)%nat ->
         after j = Z.max (match j with O => -32768 | S j' => after j' end)
                         (match delay_in_force (own_delay u_seq us from seqs) from m j with
                          | Some d => clamp16 (s_event tt t day (ev_stop j) (ev_arr j) + d - base)
                          | None => before j end)) /\
      (forall i', (i' < length (rt_times r))%nat -> i' <> i ->
         nth i' (rt_times r') [] = nth i' (rt_times r) [] /\ nth i' (rt_stops r') [] = nth i' (rt_stops r) []).
Proof.
  intros tt base ms src t day from to seqs us r r' n m before HB HN Hm Hfm HS HO HID HD HA.
  pose proof (apply_msgs_mi tt base ms _ (create_mi tt base)) as MI. fold r in MI. destruct MI as [RI RG TL RB].
  destruct RI as [A B C D E].
  unfold r', before. cbn [apply_msg]. unfold resolve_rt_run. cbn [r_t r_from r_to]. unfold resolve_rt.
  change (@lookup_find) with lookup_find.
  destruct (lookup_find (rt_lookup r) (t, day)) as [i|] eqn:El; unfold update_scheduled; cbn [r_t r_rt r_from r_to fst].
  - exists i. set (x := mk_run (Some (t, day)) from to (Some i)). set (r1 := set_cancelled r i false).
    destruct (TL t day i El) as [T1 T2]. split; [|split].
    + rewrite update_run_rt_lookup. exact El.
    + cbv zeta. intros j Hj.
      assert (HL : length (nth i (rt_times r1) []) = (2 * n - 2)%nat) by (unfold r1; cbn [set_cancelled rt_times]; rewrite C, T2; reflexivity).
      rewrite <- RB in HB |- *.
      apply (C34_delays_by_stop_sequence tt x i t day r1 seqs us eq_refl HN Hm Hfm ltac:(unfold r1; cbn; lia) HL HB); auto.
    + intros i' Hi' Hne. destruct (C33_one_update tt x i (s_seq tt t) r1 seqs us) as [_ H]. apply H. exact Hne.
  - pose proof (add_frame tt r src (Some (t, day)) [] [] None A B) as F.
    pose proof (add_scheduled_times tt r src t day A B HN) as G.
    pose proof (ranged_add_scheduled tt r src (t, day) RG) as RG1.
    pose proof (add_scheduled_len tt r src (t, day) A B) as GL.
    change (@Some transport (t, day)) with (@Some (nat * Z) (t, day)) in *.
    destruct (add_rt_transport tt r src (@Some (nat * Z) (t, day)) [] [] None) as [r1 i]. destruct F as (F1 & F2 & F3 & F4 & F5 & F6).
    destruct G as (G1 & G2 & G3). cbn [fst] in RG1. rewrite G1 in GL.
    exists i. set (x := mk_run (Some (t, day)) from to (Some i)). split; [|split].
    + rewrite update_run_rt_lookup. apply G2. exact El.
    + cbv zeta. intros j Hj. rewrite <- RB. rewrite <- G3 by exact Hj. rewrite <- F5.
      apply (C34_delays_by_stop_sequence tt x i t day r1 seqs us eq_refl HN Hm Hfm ltac:(lia) GL ltac:(lia)); auto.
    + intros i' Hi' Hne. destruct (C33_one_update tt x i (s_seq tt t) r1 seqs us) as [_ H]. destruct (H i' Hne) as [-> ->].
      apply F6. lia.
Qed.

(** The history: a cancellation of another vehicle, a first update of vehicle 0 and a second one. *)
Example C34_message_example :
  let m1 := M_cancel 0 (1%nat, 0) 0 4 in
  let m2 := M_update 0 (0%nat, 0) 0 4 [1; 2; 3; 4] exd_us in
  let m3 := M_update 0 (0%nat, 0) 0 4 [1; 2; 3; 4] [mk_stu (Some 3) None (Some (mk_ste (Some 180) None)) None false None] in
  let r1 := apply_msgs exd_stt [m1; m2] (create_rt_timetable exd_stt 100000) in
  nth 0 (rt_times r1) [] = [0; 10; 15; 25; 25; 35] /\
  nth 0 (rt_times (apply_msg exd_stt r1 m3)) [] = [0; 10; 15; 23; 23; 33].
Proof. split; vm_compute; reflexivity. Qed.
Print Assumptions C34_message_by_stop_sequence.
