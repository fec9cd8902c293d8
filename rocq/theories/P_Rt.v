(** C33, C35, C36: the real-time timetable under arbitrary histories of feed messages. *)
From Coq Require Import List ZArith Lia Bool Arith.
From Verif Require Import Base Time_Model Calendar_Model Query_Model Rt_Model Rt_Proofs.
Import ListNotations.
Local Open Scope Z_scope.

(** * Invariant of all histories *)
(** Arrays have one entry per vehicle, times fit the stops and are ordered, the two lookups agree. *)
Record rt_inv (r : rtt) : Prop := mk_rt_inv {
  ri_times : length (rt_times r) = length (rt_static r);
  ri_stops : length (rt_stops r) = length (rt_static r);
  ri_len : forall i, length (nth i (rt_times r) []) = (2 * length (nth i (rt_stops r) []) - 2)%nat;
  ri_sorted : forall i, nondecreasing (nth i (rt_times r) []);
  ri_lookup : forall t i, lookup_find (rt_lookup r) t = Some i <-> nth_error (rt_static r) i = Some (inl t) }.

Lemma copy_times_length n : forall k sl dep arr, length (copy_times n k sl dep arr) = (2 * n)%nat.
Proof.
  induction n as [|n IH]; intros k sl dep arr; cbn [copy_times length]; [reflexivity|].
  destruct (sl <=? S k + 1)%nat; [rewrite repeat_length; lia|]. rewrite IH. lia.
Qed.
(** [add_rt_transport], existing vehicles and the new one. *)
Lemma add_frame tt r src t ss ts id :
  length (rt_times r) = length (rt_static r) -> length (rt_stops r) = length (rt_static r) ->
  let (r', i) := add_rt_transport tt r src t ss ts id in
  i = length (rt_static r) /\ length (rt_times r') = S i /\ length (rt_stops r') = S i /\ length (rt_static r') = S i /\
  rt_base r' = rt_base r /\
  forall j, (j < i)%nat -> nth j (rt_times r') [] = nth j (rt_times r) [] /\ nth j (rt_stops r') [] = nth j (rt_stops r) [].
Proof.
  intros A B. unfold add_rt_transport. split; [reflexivity|].
  destruct id as [id|], t as [[ti day]|]; cbn [rt_times rt_stops rt_static rt_base]; rewrite !app_length; cbn [length];
    (split; [lia|]); (split; [lia|]); (split; [lia|]); (split; [reflexivity|]); intros j Hj; rewrite !app_nth1 by lia; auto.
Qed.
Lemma add_scheduled_len tt r src t :
  length (rt_times r) = length (rt_static r) -> length (rt_stops r) = length (rt_static r) ->
  let (r', i) := add_rt_transport tt r src (Some t) [] [] None in
  length (nth i (rt_times r') []) = (2 * length (nth i (rt_stops r') []) - 2)%nat.
Proof.
  intros A B. unfold add_rt_transport. destruct t as [ti day]. cbn [rt_times rt_stops].
  rewrite !app_nth2 by lia. rewrite A, B, Nat.sub_diag. cbn [nth]. rewrite copy_times_length. lia.
Qed.
Lemma add_new_len tt r src id stops :
  length (rt_times r) = length (rt_static r) -> length (rt_stops r) = length (rt_static r) ->
  let (r', i) := add_rt_transport tt r src None stops (repeat 0 (2 * length stops - 2)) (Some id) in
  length (nth i (rt_times r') []) = (2 * length (nth i (rt_stops r') []) - 2)%nat /\ nth i (rt_stops r') [] = stops.
Proof.
  intros A B. unfold add_rt_transport. cbn [rt_times rt_stops].
  rewrite !app_nth2 by lia. rewrite A, B, Nat.sub_diag. cbn [nth].
  assert (E : match stops with [] => stops | _ :: _ => stops end = stops) by (destruct stops; auto). rewrite E.
  assert (E2 : forall l : list Z, match l with [] => l | _ :: _ => l end = l) by (intros []; auto). rewrite E2.
  rewrite repeat_length. auto.
Qed.

Lemma update_run_rt_inv tt x i lseq r seqs us :
  length (rt_times r) = length (rt_static r) -> length (rt_stops r) = length (rt_static r) ->
  (forall j, length (nth j (rt_times r) []) = (2 * length (nth j (rt_stops r) []) - 2)%nat) ->
  (forall j, j <> i -> nondecreasing (nth j (rt_times r) [])) ->
  (forall t j, lookup_find (rt_lookup r) t = Some j <-> nth_error (rt_static r) j = Some (inl t)) ->
  rt_inv (update_run_rt tt x i lseq r seqs us).
Proof.
  intros A B C D E. destruct (update_run_rt_frame tt x i lseq r seqs us) as (F1 & F2 & F3 & F4 & F5 & F6 & F7).
  pose proof (touch_before_cancel tt x i lseq r seqs us) as T. destruct T.
  constructor; rewrite ?F1, ?F2, ?F4, ?F5; auto; try congruence.
  - intros j. destruct (Nat.eq_dec j i) as [->|Hj].
    + rewrite tc_tilen, tc_silen. apply C.
    + rewrite tc_times, tc_stops by auto. apply C.
  - intros j. destruct (Nat.eq_dec j i) as [->|Hj]; [apply before_cancel_sorted|].
    rewrite tc_times by auto. now apply D.
Qed.

Lemma nondecreasing_nil : nondecreasing [].
Proof. intros a b H. cbn in H. lia. Qed.

Lemma add_lookup_scheduled tt r src t :
  lookup_find (rt_lookup r) t = None ->
  (forall t i, lookup_find (rt_lookup r) t = Some i <-> nth_error (rt_static r) i = Some (inl t)) ->
  let (r', i) := add_rt_transport tt r src (Some t) [] [] None in
  forall t' j, lookup_find (rt_lookup r') t' = Some j <-> nth_error (rt_static r') j = Some (inl t').
Proof.
  intros N H. unfold add_rt_transport. destruct t as [ti day]. cbn [rt_lookup rt_static].
  intros t' j. unfold lookup_emplace. rewrite N. rewrite lookup_find_app by exact N.
  destruct (Nat.lt_ge_cases j (length (rt_static r))) as [Hj|Hj].
  - rewrite nth_error_app1 by lia. destruct (transport_eqb_spec (ti, day) t') as [<-|Hn].
    + split; intros K.
      * injection K as <-. lia.
      * apply H in K. congruence.
    + apply H.
  - rewrite nth_error_app2 by lia. destruct (transport_eqb_spec (ti, day) t') as [<-|Hn].
    + split; intros K.
      * injection K as <-. now rewrite Nat.sub_diag.
      * f_equal. destruct (j - length (rt_static r))%nat as [|[|k]] eqn:Ej; try discriminate; lia.
    + split; intros K.
      * apply H in K.
        assert (j < length (rt_static r))%nat by (apply nth_error_Some; congruence). lia.
      * destruct (j - length (rt_static r))%nat as [|[|k]]; cbn in K; try discriminate. congruence.
Qed.
Lemma add_lookup_new tt r src ss ts id :
  (forall t i, lookup_find (rt_lookup r) t = Some i <-> nth_error (rt_static r) i = Some (inl t)) ->
  let (r', i) := add_rt_transport tt r src None ss ts (Some id) in
  forall t' j, lookup_find (rt_lookup r') t' = Some j <-> nth_error (rt_static r') j = Some (inl t').
Proof.
  intros H. unfold add_rt_transport. cbn [rt_lookup rt_static]. intros t' j. rewrite H.
  destruct (Nat.lt_ge_cases j (length (rt_static r))) as [Hj|Hj].
  - now rewrite nth_error_app1 by lia.
  - rewrite nth_error_app2 by lia. split; intros K.
    + assert (j < length (rt_static r))%nat by (apply nth_error_Some; congruence). lia.
    + destruct (j - length (rt_static r))%nat as [|[|k]]; cbn in K; discriminate.
Qed.

Lemma apply_msg_inv tt m r : rt_inv r -> rt_inv (apply_msg tt r m).
Proof.
  intros [A B C D E]. destruct m as [src t from to seqs us|src lid tid stops us|src t from to]; cbn [apply_msg].
  - unfold resolve_rt_run. cbn [r_t r_from r_to]. unfold resolve_rt. destruct (lookup_find (rt_lookup r) t) as [i|] eqn:El.
    + unfold update_scheduled. cbn [r_t r_rt]. apply update_run_rt_inv; cbn [set_cancelled rt_times rt_stops rt_static rt_lookup]; auto.
    + unfold update_scheduled. cbn [r_t r_rt r_from r_to].
      pose proof (add_frame tt r src (Some t) [] [] None A B) as F. pose proof (add_scheduled_len tt r src t A B) as G.
      pose proof (add_lookup_scheduled tt r src t El E) as H.
      destruct (add_rt_transport tt r src (Some t) [] [] None) as [r1 i]. destruct F as (F1 & F2 & F3 & F4 & F5 & F6).
      apply update_run_rt_inv; auto; try congruence.
      * intros j. destruct (Nat.lt_trichotomy j i) as [Hj|[->|Hj]].
        -- destruct (F6 j Hj) as [-> ->]. apply C.
        -- exact G.
        -- rewrite !nth_overflow by lia. reflexivity.
      * intros j Hj. destruct (Nat.lt_ge_cases j i) as [Hj'|Hj'].
        -- destruct (F6 j Hj') as [-> _]. apply D.
        -- rewrite nth_overflow by lia. apply nondecreasing_nil.
  - unfold update_added. destruct (r_rt (resolve_rt_run r (mk_run None 0 0 None) lid src)) as [i|].
    + apply update_run_rt_inv; cbn [set_cancelled rt_times rt_stops rt_static rt_lookup]; auto.
    + pose proof (add_frame tt r src None stops (repeat 0 (2 * length stops - 2)) (Some tid) A B) as F.
      pose proof (add_new_len tt r src tid stops A B) as G.
      pose proof (add_lookup_new tt r src stops (repeat 0 (2 * length stops - 2)) tid E) as H.
      destruct (add_rt_transport tt r src None stops (repeat 0 (2 * length stops - 2)) (Some tid)) as [r1 i].
      destruct F as (F1 & F2 & F3 & F4 & F5 & F6). destruct G as [G _].
      apply update_run_rt_inv; auto; try congruence.
      * intros j. destruct (Nat.lt_trichotomy j i) as [Hj|[->|Hj]].
        -- destruct (F6 j Hj) as [-> ->]. apply C.
        -- exact G.
        -- rewrite !nth_overflow by lia. reflexivity.
      * intros j Hj. destruct (Nat.lt_ge_cases j i) as [Hj'|Hj'].
        -- destruct (F6 j Hj') as [-> _]. apply D.
        -- rewrite nth_overflow by lia. apply nondecreasing_nil.
  - destruct (cancel_run_frame tt r (resolve_rt_run r (mk_run (Some t) from to None) 0 src)) as (F1 & F2 & F3 & F4 & F5 & F6 & F7).
    constructor; rewrite ?F1, ?F2, ?F4, ?F5; auto.
Qed.
Lemma apply_msgs_inv tt ms : forall r, rt_inv r -> rt_inv (apply_msgs tt ms r).
Proof.
  induction ms as [|m ms IH]; intros r H; [exact H|]. cbn [apply_msgs fold_left]. apply IH. now apply apply_msg_inv.
Qed.
Lemma create_inv tt base : rt_inv (create_rt_timetable tt base).
Proof.
  constructor; cbn [create_rt_timetable rt_times rt_stops rt_static rt_lookup]; auto.
  - intros [|i]; reflexivity.
  - intros [|i]; apply nondecreasing_nil.
  - intros t [|i]; cbn; split; discriminate.
Qed.

(** * C33 *)
(** After any history of messages: along every real-time vehicle, departure at stop k <= arrival at stop k + 1 and arrival at
    stop k <= departure from stop k. *)
Theorem C33_vehicles_run_forward_in_time :
  forall tt base ms i k,
    let r := apply_msgs tt ms (create_rt_timetable tt base) in
    let n := length (nth i (rt_stops r) []) in
    ((k + 1 < n)%nat -> unix_event_time r i k false <= unix_event_time r i (k + 1) true) /\
    ((0 < k)%nat -> (k + 1 < n)%nat -> unix_event_time r i k true <= unix_event_time r i k false).
Proof.
  intros tt base ms i k r n. pose proof (apply_msgs_inv tt ms _ (create_inv tt base)) as [A B C D E].
  fold r in A, B, C, D, E. specialize (C i). specialize (D i). fold n in C.
  unfold unix_event_time, event_time, ev_idx. split.
  - intros Hk. apply Z.add_le_mono_l. apply D. lia.
  - intros H0 Hk. apply Z.add_le_mono_l. apply D. lia.
Qed.
(** The same for an arbitrary (not necessarily ordered) state: the updated vehicle is ordered afterwards, whatever the
    message says, and no other vehicle's times or stops change. *)
Theorem C33_one_update :
  forall tt x i lseq r seqs us,
    let r' := update_run_rt tt x i lseq r seqs us in
    (forall a b, (a <= b < length (nth i (rt_times r') []))%nat -> nth a (nth i (rt_times r') []) 0 <= nth b (nth i (rt_times r') []) 0) /\
    (forall j, j <> i -> nth j (rt_times r') [] = nth j (rt_times r) [] /\ nth j (rt_stops r') [] = nth j (rt_stops r) []).
Proof.
  intros tt x i lseq r seqs us r'.
  destruct (update_run_rt_frame tt x i lseq r seqs us) as (F1 & F2 & _). fold r' in F1, F2. rewrite F1, F2.
  pose proof (touch_before_cancel tt x i lseq r seqs us) as T. destruct T. split.
  - apply before_cancel_sorted.
  - intros j Hj. auto.
Qed.

(** * C35 *)
(** The vehicle and day a message is about. *)
Definition addresses (m : msg) (t : nat) (d : Z) : bool :=
  match m with
  | M_update _ (t', d') _ _ _ _ => Nat.eqb t' t && (d =? d')
  | M_cancel _ (t', d') _ _ => Nat.eqb t' t && (d =? d')
  | M_added _ _ _ _ _ => false
  end.
Definition msg_ok (tt : stt) (m : msg) : Prop :=
  match m with
  | M_update _ (t, _) _ _ _ _ | M_cancel _ (t, _) _ _ => (t < length (s_days tt))%nat
  | M_added _ _ _ _ _ => True
  end.
(** Static timetable: every vehicle's bit field index is an index below 2^31. *)
Definition static_ok (tt : stt) : Prop := Forall (fun i => 0 <= i < kRtBitfieldFlag) (s_days tt).

(** Once a vehicle has a real-time twin, its day is switched off. *)
Definition twin_off (tt : stt) (r : rtt) : Prop :=
  forall t d i, lookup_find (rt_lookup r) (t, d) = Some i -> (t < length (s_days tt))%nat -> is_transport_active tt r t d = false.

Lemma add_days_scheduled tt r src ti day :
  let (r', i) := add_rt_transport tt r src (Some (ti, day)) [] [] None in disabled tt ti day 1 r r'.
Proof.
  unfold add_rt_transport. eapply dis_step; [apply dis_same; reflexivity|reflexivity|reflexivity].
Qed.
Lemma update_run_rt_lookup tt x i lseq r seqs us : rt_lookup (update_run_rt tt x i lseq r seqs us) = rt_lookup r.
Proof. apply (update_run_rt_frame tt x i lseq r seqs us). Qed.
Lemma apply_msg_days tt m r :
  days_wf tt r -> msg_ok tt m -> twin_off tt r -> rt_inv r -> Z.of_nat (length (rt_bitfields r)) + 2 < kRtBitfieldFlag ->
  days_wf tt (apply_msg tt r m) /\ twin_off tt (apply_msg tt r m) /\
  (length (rt_bitfields (apply_msg tt r m)) <= length (rt_bitfields r) + 2)%nat /\
  forall t d, (t < length (s_days tt))%nat ->
    is_transport_active tt (apply_msg tt r m) t d = is_transport_active tt r t d && negb (addresses m t d).
Proof.
  intros W OK TO RI Hs.
  assert (KEY : forall ti day n r', (ti < length (s_days tt))%nat -> disabled tt ti day n r r' -> (n <= 2)%nat ->
    (forall t d i, lookup_find (rt_lookup r') (t, d) = Some i -> lookup_find (rt_lookup r) (t, d) <> None \/ (t, d) = (ti, day)) ->
    ((1 <= n)%nat \/ is_transport_active tt r ti day = false) ->
    days_wf tt r' /\ twin_off tt r' /\ (length (rt_bitfields r') <= length (rt_bitfields r) + 2)%nat /\
    forall t d, (t < length (s_days tt))%nat ->
      is_transport_active tt r' t d = is_transport_active tt r t d && negb (Nat.eqb ti t && (d =? day))).
  { intros ti day n r' Hti D Hn HL Hoff. destruct (disabled_active tt ti day n r r' D W Hti ltac:(lia)) as (W' & L' & A').
    assert (AA : forall t d, (t < length (s_days tt))%nat ->
      is_transport_active tt r' t d = is_transport_active tt r t d && negb (Nat.eqb ti t && (d =? day))).
    { intros t d Ht. rewrite A' by auto. destruct (Nat.leb_spec 1 n) as [H1|H1]; cbn [andb]; [reflexivity|].
      destruct Hoff as [Hoff|Hoff]; [lia|].
      destruct (Nat.eqb_spec ti t) as [<-|]; [|reflexivity]. destruct (Z.eqb_spec d day) as [->|]; [|reflexivity].
      now rewrite Hoff. }
    split; [exact W'|]. split; [|split; [lia|exact AA]].
    intros t d i Hl Ht. rewrite AA by auto. destruct (HL t d i Hl) as [H|H].
    - destruct (lookup_find (rt_lookup r) (t, d)) as [j|] eqn:E; [|congruence].
      now rewrite (TO t d j E Ht).
    - injection H as -> ->. rewrite Nat.eqb_refl, Z.eqb_refl. cbn [andb negb]. apply andb_false_r. }
  destruct m as [src [ti day] from to seqs us|src lid tid stops us|src [ti day] from to]; cbn [apply_msg addresses msg_ok] in *.
  - unfold resolve_rt_run. cbn [r_t r_from r_to]. unfold resolve_rt.
    destruct (lookup_find (rt_lookup r) (ti, day)) as [i|] eqn:El; unfold update_scheduled; cbn [r_t r_rt r_from r_to fst].
    + edestruct (update_run_rt_disabled tt (mk_run (Some (ti, day)) from to (Some i)) i (s_seq tt ti) (set_cancelled r i false) seqs us
                   ti day eq_refl) as (n & Hn & D).
      eapply KEY; [exact OK|eapply disabled_ext; [| |exact D]; reflexivity|lia| |right; eapply TO; eauto].
      intros t d j Hl. left. rewrite update_run_rt_lookup in Hl. cbn [set_cancelled rt_lookup] in Hl. congruence.
    + pose proof (add_days_scheduled tt r src ti day) as D1.
      change (@Some (nat * Z) (ti, day)) with (@Some transport (ti, day)) in D1.
      assert (HL1 : let (r1, _) := add_rt_transport tt r src (@Some transport (ti, day)) [] [] None in
                    rt_lookup r1 = rt_lookup r ++ [((ti, day), length (rt_static r))]).
      { unfold add_rt_transport. cbn [rt_lookup]. unfold lookup_emplace. now rewrite El. }
      destruct (add_rt_transport tt r src (@Some transport (ti, day)) [] [] None) as [r1 i].
      edestruct (update_run_rt_disabled tt (mk_run (Some (ti, day)) from to (Some i)) i (s_seq tt ti) r1 seqs us
                   ti day eq_refl) as (n & Hn & D2).
      eapply KEY; [exact OK|exact (disabled_trans _ _ _ _ _ _ D1 _ _ D2)|lia| |left; lia].
      intros t d j Hl. rewrite update_run_rt_lookup, HL1 in Hl. rewrite lookup_find_app in Hl by exact El.
      destruct (transport_eqb_spec (ti, day) (t, d)) as [E|]; [right; auto|left; congruence].
  - assert (SAME : forall r', rt_days r' = rt_days r -> rt_bitfields r' = rt_bitfields r -> rt_lookup r' = rt_lookup r ->
      days_wf tt r' /\ twin_off tt r' /\ (length (rt_bitfields r') <= length (rt_bitfields r) + 2)%nat /\
      forall t d, (t < length (s_days tt))%nat -> is_transport_active tt r' t d = is_transport_active tt r t d && negb false).
    { intros r' A B C. split; [eapply days_wf_ext; eauto|]. split; [|split; [rewrite B; lia|]].
      - intros t d j Hl Ht. rewrite (active_ext tt r r') by auto. rewrite C in Hl. eapply TO; eauto.
      - intros t d Ht. cbn [negb]. rewrite andb_true_r. now apply active_ext. }
    unfold update_added. set (x := resolve_rt_run r (mk_run None 0 0 None) lid src).
    assert (Ex : r_t x = None).
    { unfold x, resolve_rt_run. cbn [r_t]. destruct (id_find (rt_ids r src) lid) as [k|]; [|reflexivity]. reflexivity. }
    destruct (r_rt x) as [i|].
    + destruct (update_run_rt_not_disabled tt x i (nth i (rt_stops r) []) (set_cancelled r i false)
                  (map Z.of_nat (seq 0 (length (nth i (rt_stops r) [])))) us Ex) as [A B].
      apply SAME; [exact A|exact B|].
      destruct (update_run_rt_frame tt x i (nth i (rt_stops r) []) (set_cancelled r i false)
                  (map Z.of_nat (seq 0 (length (nth i (rt_stops r) [])))) us) as (_ & _ & _ & F & _). exact F.
    + assert (HA : let (r1, _) := add_rt_transport tt r src None stops (repeat 0 (2 * length stops - 2)) (Some tid) in
                   rt_days r1 = rt_days r /\ rt_bitfields r1 = rt_bitfields r /\ rt_lookup r1 = rt_lookup r).
      { unfold add_rt_transport. cbn [rt_days rt_bitfields rt_lookup]. auto. }
      destruct (add_rt_transport tt r src None stops (repeat 0 (2 * length stops - 2)) (Some tid)) as [r1 i].
      destruct HA as (HA1 & HA2 & HA3).
      destruct (update_run_rt_not_disabled tt (mk_run None 0 0 (Some i)) i stops r1
                  (map Z.of_nat (seq 0 (length stops))) us eq_refl) as [A B].
      destruct (update_run_rt_frame tt (mk_run None 0 0 (Some i)) i stops r1
                  (map Z.of_nat (seq 0 (length stops))) us) as (_ & _ & _ & F & _).
      apply SAME; congruence.
  - eapply (KEY ti day 1%nat); [exact OK| |lia| |left; lia].
    + unfold cancel_run. unfold resolve_rt_run. cbn [r_t]. unfold resolve_rt.
      destruct (lookup_find (rt_lookup r) (ti, day)) as [i|]; cbn [r_rt r_t].
      * eapply (dis_step _ _ _ 0 r (set_cancelled r i true)); [apply dis_same; reflexivity|reflexivity|reflexivity].
      * eapply (dis_step _ _ _ 0 r r); [apply dis_same; reflexivity|reflexivity|reflexivity].
    + intros t d j Hl. left.
      match type of Hl with context [cancel_run tt r ?z] => destruct (cancel_run_frame tt r z) as (_ & _ & _ & F & _) end.
      rewrite F in Hl. congruence.
Qed.

(** The real-time view of the traffic days: static days minus exactly the addressed (vehicle, day) pairs. *)
Theorem C35_only_the_addressed_vehicle_and_day :
  forall tt base ms,
    static_ok tt -> Forall (msg_ok tt) ms -> 2 * Z.of_nat (length ms) + 2 < 2 ^ 31 ->
    forall t d, (t < length (s_days tt))%nat ->
      is_transport_active tt (apply_msgs tt ms (create_rt_timetable tt base)) t d =
        static_active tt t d && negb (existsb (fun m => addresses m t d) ms).
Proof.
  intros tt base ms SO.
  assert (G : forall ms r, days_wf tt r -> twin_off tt r -> rt_inv r -> Forall (msg_ok tt) ms ->
    Z.of_nat (length (rt_bitfields r)) + 2 * Z.of_nat (length ms) + 2 < kRtBitfieldFlag ->
    forall t d, (t < length (s_days tt))%nat ->
      is_transport_active tt (apply_msgs tt ms r) t d =
        is_transport_active tt r t d && negb (existsb (fun m => addresses m t d) ms)).
  { clear ms. induction ms as [|m ms IH]; intros r W TO RI OK Hs t d Ht.
    - cbn [apply_msgs fold_left existsb negb]. now rewrite andb_true_r.
    - inversion OK as [|m0 ms0 OK1 OK2 E]; subst. cbn [length] in Hs.
      destruct (apply_msg_days tt m r W OK1 TO RI ltac:(lia)) as (W' & TO' & L' & A').
      cbn [apply_msgs fold_left existsb]. change (fold_left (apply_msg tt) ms (apply_msg tt r m)) with (apply_msgs tt ms (apply_msg tt r m)).
      rewrite IH; auto; [|now apply apply_msg_inv|lia].
      rewrite A' by auto. rewrite negb_orb, andb_assoc. reflexivity. }
  intros OK Hl t d Ht. rewrite G; auto.
  - f_equal. unfold is_transport_active, static_active. cbn [create_rt_timetable rt_days]. f_equal.
    unfold traffic_days. assert (K : 0 <= nth t (s_days tt) 0 < kRtBitfieldFlag).
    { unfold static_ok in SO. rewrite Forall_forall in SO. apply SO. now apply nth_In. }
    now rewrite Z.div_small by exact K.
  - constructor; cbn [create_rt_timetable rt_days rt_bitfields length]; [reflexivity| |reflexivity].
    intros t' Ht'. left. unfold static_ok in SO. rewrite Forall_forall in SO. apply SO. now apply nth_In.
  - intros t' d' i H. discriminate H.
  - apply create_inv.
Qed.

(** * C36 *)
(** The scheduled vehicle of a day and its real-time twin resolve to each other after every history of messages. *)
Theorem C36_twins_resolve_to_each_other :
  forall tt base ms t i,
    let r := apply_msgs tt ms (create_rt_timetable tt base) in
    resolve_rt r t = Some i <-> resolve_static r i = Some t.
Proof.
  intros tt base ms t i r. pose proof (apply_msgs_inv tt ms _ (create_inv tt base)) as [A B C D E]. fold r in E.
  unfold resolve_rt, resolve_static. rewrite E. destruct (nth_error (rt_static r) i) as [[u|k]|]; split; intros K; congruence.
Qed.
(** A vehicle with real-time data stays the twin of its scheduled vehicle. *)
Theorem C36_twin_is_stable :
  forall tt r ms t i, resolve_rt r t = Some i -> resolve_rt (apply_msgs tt ms r) t = Some i.
Proof.
  intros tt r ms. revert r. induction ms as [|m ms IH]; intros r t i H; [exact H|].
  cbn [apply_msgs fold_left]. apply IH. clear IH ms. unfold resolve_rt in *.
  destruct m as [src t0 from to seqs us|src lid tid stops us|src t0 from to]; cbn [apply_msg].
  - unfold resolve_rt_run. cbn [r_t r_from r_to]. unfold resolve_rt. destruct (lookup_find (rt_lookup r) t0) as [j|] eqn:El;
      unfold update_scheduled; cbn [r_t r_rt r_from r_to].
    + rewrite update_run_rt_lookup. exact H.
    + unfold add_rt_transport. destruct t0 as [ti day]. rewrite update_run_rt_lookup. cbn [rt_lookup].
      unfold lookup_emplace. rewrite El. rewrite lookup_find_app by exact El.
      destruct (transport_eqb_spec (ti, day) t) as [<-|]; [congruence|exact H].
  - unfold update_added. destruct (r_rt (resolve_rt_run r (mk_run None 0 0 None) lid src)) as [j|].
    + rewrite update_run_rt_lookup. exact H.
    + unfold add_rt_transport. rewrite update_run_rt_lookup. exact H.
  - destruct (cancel_run_frame tt r (resolve_rt_run r (mk_run (Some t0) from to None) 0 src)) as (_ & _ & _ & F & _).
    rewrite F. exact H.
Qed.

(** Reading returns the last written time, saturated to 16 bit minutes relative to the base day; events that were not
    written keep their time. *)
Record write := mk_write { w_vehicle : nat; w_stop : nat; w_arr : bool; w_time : Z }.
Definition apply_writes (ws : list write) (r : rtt) : rtt :=
  fold_left (fun r w => update_time r (w_vehicle w) (w_stop w) (w_arr w) (w_time w)) ws r.
Definition is_event (r : rtt) (i k : nat) (arr : bool) : Prop :=
  (arr = true -> (0 < k)%nat) /\ (ev_idx k arr < length (nth i (rt_times r) []))%nat.
Definition writes_to (i k : nat) (arr : bool) (w : write) : bool :=
  Nat.eqb (w_vehicle w) i && Nat.eqb (w_stop w) k && Bool.eqb (w_arr w) arr.
Lemma ev_idx_inj k a k' a' : (a = true -> (0 < k)%nat) -> (a' = true -> (0 < k')%nat) -> ev_idx k a = ev_idx k' a' -> k = k' /\ a = a'.
Proof.
  unfold ev_idx. intros H H' E. destruct a, a'; try specialize (H eq_refl); try specialize (H' eq_refl); split; auto; lia.
Qed.
Theorem C36_read_after_write :
  forall ws r i k arr,
    Forall (fun w => is_event r (w_vehicle w) (w_stop w) (w_arr w)) ws -> is_event r i k arr ->
    unix_event_time (apply_writes ws r) i k arr =
      match find (writes_to i k arr) (rev ws) with
      | Some w => rt_base r + Z.max (-32768) (Z.min 32767 (w_time w - rt_base r))
      | None => unix_event_time r i k arr
      end.
Proof.
  intros ws r i k arr. revert r. induction ws as [|w ws IH]; intros r HW HE; [reflexivity|].
  inversion HW as [|w0 ws0 H1 H2]; subst. cbn [apply_writes fold_left].
  change (fold_left _ ws ?z) with (apply_writes ws z).
  set (r1 := update_time r (w_vehicle w) (w_stop w) (w_arr w) (w_time w)).
  pose proof (touch_update_time (w_vehicle w) r (w_stop w) (w_arr w) (w_time w)) as T. fold r1 in T.
  assert (LEN : forall j, length (nth j (rt_times r1) []) = length (nth j (rt_times r) [])).
  { intros j. destruct (Nat.eq_dec j (w_vehicle w)) as [->|Hn]; [apply T|]. now rewrite (tc_times _ _ _ T) by auto. }
  assert (EV : forall j k' a', is_event r j k' a' -> is_event r1 j k' a').
  { intros j k' a' [A B]. split; [exact A|]. now rewrite LEN. }
  rewrite IH; [|eapply Forall_impl; [|exact H2]; intros a Ha; apply EV; exact Ha|apply EV; exact HE].
  cbn [rev]. assert (FA : forall (f : write -> bool) l a, find f (l ++ [a]) = match find f l with Some b => Some b | None => if f a then Some a else None end).
  { intros f l a. induction l as [|b l IHl]; cbn [app find]; [reflexivity|]. destruct (f b); auto. }
  rewrite FA. rewrite (tc_base _ _ _ T). destruct (find (writes_to i k arr) (rev ws)) as [b|]; [reflexivity|].
  unfold writes_to. unfold unix_event_time. rewrite (tc_base _ _ _ T).
  assert (HV : (w_vehicle w < length (rt_times r))%nat).
  { destruct (Nat.lt_ge_cases (w_vehicle w) (length (rt_times r))) as [|Hge]; [auto|].
    destruct H1 as [_ H1]. rewrite nth_overflow in H1 by lia. cbn [length] in H1. lia. }
  unfold event_time, r1, update_time. cbn [set_times rt_times].
  destruct (Nat.eqb_spec (w_vehicle w) i) as [<-|Hn]; cbn [andb].
  - rewrite nth_set_nth_eq by exact HV.
    destruct (Nat.eqb_spec (w_stop w) k) as [E1|N1]; [destruct (Bool.eqb_spec (w_arr w) arr) as [E2|N2]|]; cbn [andb].
    + rewrite E1, E2. rewrite nth_set_nth_eq; [reflexivity|apply HE].
    + rewrite nth_set_nth_neq; [reflexivity|]. intros E. destruct (ev_idx_inj _ _ _ _ (proj1 H1) (proj1 HE) E); auto.
    + rewrite nth_set_nth_neq; [reflexivity|]. intros E. destruct (ev_idx_inj _ _ _ _ (proj1 H1) (proj1 HE) E); auto.
  - now rewrite nth_set_nth_neq by auto.
Qed.

(** ** Trips added by the feed are found again under their id *)
(** The vehicle found for an id of an added trip. *)
Definition added_vehicle (r : rtt) (src : nat) (id : Z) : option nat := r_rt (resolve_rt_run r (mk_run None 0 0 None) id src).
(** Every message about an added trip looks it up under the id it is stored under. *)
Definition same_id (m : msg) : Prop := match m with M_added _ lookup_id trip_id _ _ => lookup_id = trip_id | _ => True end.
Record ids_inv (r : rtt) : Prop := mk_ids_inv {
  ii_len : forall src, length (rt_ids r src) = length (rt_added r src);
  ii_lt : forall src k i, nth_error (rt_added r src) k = Some i -> (i < length (rt_static r))%nat;
  ii_inj : forall src src' k k' i, nth_error (rt_added r src) k = Some i -> nth_error (rt_added r src') k' = Some i -> src = src' /\ k = k' }.
Lemma added_vehicle_eq r src id :
  added_vehicle r src id = match id_find (rt_ids r src) id with Some k => Some (nth k (rt_added r src) 0%nat) | None => None end.
Proof. unfold added_vehicle, resolve_rt_run. cbn [r_t r_from r_to]. destruct (id_find (rt_ids r src) id); reflexivity. Qed.
Lemma upd_eq {A} (f : nat -> A) k v : upd f k v k = v.
Proof. unfold upd. now rewrite Nat.eqb_refl. Qed.
Lemma upd_neq {A} (f : nat -> A) k v x : x <> k -> upd f k v x = f x.
Proof. unfold upd. intros H. now destruct (Nat.eqb_spec x k). Qed.

Definition ids_same (r r' : rtt) : Prop := rt_ids r' = rt_ids r /\ rt_added r' = rt_added r /\ (length (rt_static r) <= length (rt_static r'))%nat.
Lemma ids_same_inv r r' : ids_same r r' -> ids_inv r -> ids_inv r'.
Proof.
  intros (A & B & C) [L T I]. constructor.
  - intros src. now rewrite A, B.
  - intros src k i. rewrite B. intros H. apply T in H. lia.
  - intros src src' k k' i. rewrite B. apply I.
Qed.
Lemma ids_same_added r r' src id : ids_same r r' -> added_vehicle r' src id = added_vehicle r src id.
Proof. intros (A & B & _). now rewrite !added_vehicle_eq, A, B. Qed.
Lemma ids_same_run tt x i lseq r seqs us : ids_same r (update_run_rt tt x i lseq r seqs us).
Proof.
  destruct (update_run_rt_frame tt x i lseq r seqs us) as (_ & _ & _ & _ & A & B & C). repeat split; auto. rewrite A. lia.
Qed.
Lemma ids_same_trans a b c : ids_same a b -> ids_same b c -> ids_same a c.
Proof. intros (A & B & C) (A' & B' & C'). repeat split; try congruence. lia. Qed.

(** The two cases of a message: the id tables do not change, or a new vehicle is appended under an unused id. *)
Lemma apply_msg_ids tt m r : same_id m -> ids_inv r ->
  match m with
  | M_added src id _ _ _ =>
      match added_vehicle r src id with
      | Some _ => ids_same r (apply_msg tt r m)
      | None =>
          let r' := apply_msg tt r m in
          rt_ids r' = upd (rt_ids r) src (rt_ids r src ++ [id]) /\
          rt_added r' = upd (rt_added r) src (rt_added r src ++ [length (rt_static r)]) /\
          length (rt_static r') = S (length (rt_static r)) /\ id_find (rt_ids r src) id = None
      end
  | _ => ids_same r (apply_msg tt r m)
  end.
Proof.
  intros SI INV. destruct m as [src t from to seqs us|src lid tid stops us|src t from to].
  - cbn [apply_msg]. unfold resolve_rt_run. cbn [r_t r_from r_to]. destruct (resolve_rt r t) as [i|]; unfold update_scheduled; cbn [r_t r_rt r_from r_to].
    + eapply ids_same_trans; [|apply ids_same_run]. repeat split; auto.
    + unfold add_rt_transport. destruct t as [ti day]. eapply ids_same_trans; [|apply ids_same_run].
      repeat split; auto. cbn [rt_static]. rewrite app_length. lia.
  - cbn [same_id] in SI. subst tid. unfold added_vehicle. cbn [apply_msg]. unfold update_added.
    destruct (r_rt (resolve_rt_run r (mk_run None 0 0 None) lid src)) as [i|] eqn:E.
    + eapply ids_same_trans; [|apply ids_same_run]. repeat split; auto.
    + assert (EN : id_find (rt_ids r src) lid = None).
      { pose proof (added_vehicle_eq r src lid) as H. unfold added_vehicle in H. rewrite E in H.
        destruct (id_find (rt_ids r src) lid); congruence. }
      assert (HA : let (r1, _) := add_rt_transport tt r src None stops (repeat 0 (2 * length stops - 2)) (Some lid) in
                   rt_ids r1 = upd (rt_ids r) src (rt_ids r src ++ [lid]) /\
                   rt_added r1 = upd (rt_added r) src (rt_added r src ++ [length (rt_static r)]) /\
                   length (rt_static r1) = S (length (rt_static r))).
      { unfold add_rt_transport. cbn [rt_ids rt_added rt_static]. unfold id_store. rewrite EN. rewrite app_length. cbn [length].
        repeat split; auto. lia. }
      destruct (add_rt_transport tt r src None stops (repeat 0 (2 * length stops - 2)) (Some lid)) as [r1 i].
      destruct (update_run_rt_frame tt (mk_run None 0 0 (Some i)) i stops r1 (map Z.of_nat (seq 0 (length stops))) us) as (_ & _ & _ & _ & A & B & C).
      cbv zeta. rewrite A, B, C. destruct HA as (H1 & H2 & H3). auto.
  - cbn [apply_msg]. destruct (cancel_run_frame tt r (resolve_rt_run r (mk_run (Some t) from to None) 0 src)) as (_ & _ & _ & _ & A & B & C).
    repeat split; auto. rewrite A. lia.
Qed.
Lemma apply_msg_ids_inv tt m r : same_id m -> ids_inv r -> ids_inv (apply_msg tt r m).
Proof.
  intros SI INV. pose proof (apply_msg_ids tt m r SI INV) as H.
  destruct m as [src t from to seqs us|src id tid stops us|src t from to]; try (eapply ids_same_inv; eauto; fail).
  destruct (added_vehicle r src id) as [i|]; [eapply ids_same_inv; eauto|].
  cbv zeta in H. destruct H as (A & B & C & D). destruct INV as [L T I].
  assert (NE : forall s k i, nth_error (upd (rt_added r) src (rt_added r src ++ [length (rt_static r)]) s) k = Some i ->
    nth_error (rt_added r s) k = Some i \/ (s = src /\ k = length (rt_added r src) /\ i = length (rt_static r))).
  { intros s k i. destruct (Nat.eq_dec s src) as [->|Hn]; [rewrite upd_eq|rewrite upd_neq by auto; auto].
    destruct (Nat.lt_ge_cases k (length (rt_added r src))) as [Hk|Hk].
    - rewrite nth_error_app1 by lia. auto.
    - rewrite nth_error_app2 by lia. destruct (k - length (rt_added r src))%nat as [|[|n]] eqn:Ek; cbn [nth_error]; try discriminate.
      + intros H. injection H as <-. right. split; [auto|]. split; [lia|auto]. }
  constructor.
  - intros s. rewrite A, B. destruct (Nat.eq_dec s src) as [->|Hn].
    + rewrite !upd_eq, !app_length. cbn [length]. now rewrite L.
    + rewrite !upd_neq by auto. apply L.
  - intros s k i. rewrite B, C. intros H. destruct (NE s k i H) as [H1|(_ & _ & ->)]; [apply T in H1; lia|lia].
  - intros s s' k k' i. rewrite B. intros H H'.
    destruct (NE s k i H) as [H1|(E1 & E2 & E3)], (NE s' k' i H') as [H2|(E4 & E5 & E6)].
    + eapply I; eauto.
    + apply T in H1. lia.
    + apply T in H2. lia.
    + split; congruence.
Qed.
Lemma apply_msgs_ids_inv tt ms : forall r, Forall same_id ms -> ids_inv r -> ids_inv (apply_msgs tt ms r).
Proof.
  induction ms as [|m ms IH]; intros r H INV; [exact INV|]. inversion H; subst. cbn [apply_msgs fold_left].
  apply IH; auto. now apply apply_msg_ids_inv.
Qed.
Lemma create_ids_inv tt base : ids_inv (create_rt_timetable tt base).
Proof.
  constructor; cbn; auto; intros src; [intros [|k] i|intros src' [|k] k' i]; cbn; discriminate.
Qed.

Lemma added_vehicle_in r src id i : ids_inv r -> added_vehicle r src id = Some i ->
  exists k, id_find (rt_ids r src) id = Some k /\ nth_error (rt_added r src) k = Some i.
Proof.
  intros [L T I] H. rewrite added_vehicle_eq in H. destruct (id_find (rt_ids r src) id) as [k|] eqn:E; [|discriminate].
  injection H as <-. exists k. split; [auto|]. apply nth_error_nth'. rewrite <- L. eapply id_find_lt; eauto.
Qed.

(** A message about an added trip refers to the vehicle its id was given first: the known one, or the newly created one. *)
Theorem C36_added_trip_is_found_again :
  forall tt base ms src id stops us,
    Forall same_id ms ->
    let r := apply_msgs tt ms (create_rt_timetable tt base) in
    added_vehicle (apply_msg tt r (M_added src id id stops us)) src id =
      Some (match added_vehicle r src id with Some i => i | None => length (rt_static r) end).
Proof.
  intros tt base ms src id stops us H r. pose proof (apply_msgs_ids_inv tt ms _ H (create_ids_inv tt base)) as INV. fold r in INV.
  pose proof (apply_msg_ids tt (M_added src id id stops us) r eq_refl INV) as K. cbv beta iota in K.
  destruct (added_vehicle r src id) as [i|] eqn:E.
  - rewrite (ids_same_added _ _ _ _ K). exact E.
  - cbv zeta in K. destruct K as (A & B & C & D). rewrite added_vehicle_eq, A, B, !upd_eq, id_find_app, D, Z.eqb_refl.
    f_equal. rewrite app_nth2 by (rewrite (ii_len _ INV); lia). rewrite (ii_len _ INV), Nat.sub_diag. reflexivity.
Qed.
(** Later messages do not change the vehicle found, and different trips have different vehicles. *)
Theorem C36_added_trip_stays :
  forall tt base ms ms' src id i,
    Forall same_id ms -> Forall same_id ms' ->
    let r := apply_msgs tt ms (create_rt_timetable tt base) in
    added_vehicle r src id = Some i -> added_vehicle (apply_msgs tt ms' r) src id = Some i.
Proof.
  intros tt base ms ms' src id i H H' r. pose proof (apply_msgs_ids_inv tt ms _ H (create_ids_inv tt base)) as INV. fold r in INV.
  clearbody r. clear H ms. revert r INV. induction H' as [|m ms' Hm H' IH]; intros r INV Hi; [exact Hi|].
  cbn [apply_msgs fold_left]. apply IH; [now apply apply_msg_ids_inv|].
  pose proof (apply_msg_ids tt m r Hm INV) as K.
  destruct m as [s t from to seqs us|s id' tid stops us|s t from to]; try (rewrite (ids_same_added _ _ _ _ K); exact Hi).
  destruct (added_vehicle r s id') as [j|]; [rewrite (ids_same_added _ _ _ _ K); exact Hi|].
  cbv zeta in K. destruct K as (A & B & C & D). rewrite added_vehicle_eq in Hi |- *. rewrite A, B.
  destruct (Nat.eq_dec src s) as [->|Hn]; [rewrite !upd_eq|rewrite !upd_neq by auto; exact Hi].
  rewrite id_find_app. destruct (id_find (rt_ids r s) id) as [k|] eqn:E; [|discriminate].
  rewrite app_nth1; [exact Hi|]. rewrite <- (ii_len _ INV). eapply id_find_lt; eauto.
Qed.
Theorem C36_added_trips_are_distinct :
  forall tt base ms src id src' id' i,
    Forall same_id ms ->
    let r := apply_msgs tt ms (create_rt_timetable tt base) in
    added_vehicle r src id = Some i -> added_vehicle r src' id' = Some i -> src = src' /\ id = id'.
Proof.
  intros tt base ms src id src' id' i H r A B. pose proof (apply_msgs_ids_inv tt ms _ H (create_ids_inv tt base)) as INV. fold r in INV.
  destruct (added_vehicle_in r src id i INV A) as (k & E1 & E2). destruct (added_vehicle_in r src' id' i INV B) as (k' & E3 & E4).
  destruct (ii_inj _ INV _ _ _ _ _ E2 E4) as [<- <-]. split; [auto|]. eapply id_find_inj; eauto.
Qed.

(** * Concrete states *)
(** Two scheduled vehicles with 3 stops each, departing at 100 resp. 200 minutes after the start of the day, 10 minutes per leg. *)
Definition ex_word (l : nat) : Z := stop_value (stop_make (Z.of_nat l) true true true true).
Definition ex_stt : stt :=
  mk_stt [(fun d => (d =? 3) || (d =? 4)); (fun d => d =? 3)] [0; 1] (fun _ => [ex_word 0; ex_word 1; ex_word 2])
    (fun t d s arr => 100000 + d * 1440 + 100 * (1 + Z.of_nat t) + 10 * Z.of_nat s) (fun l => Z.of_nat l) (fun s => Some (Z.to_nat s))
    (fun l => [l]).
Definition ex_upd (s : Z) (arr dep : option Z) : st_update :=
  mk_stu (Some s) None (option_map (fun d => mk_ste (Some d) None) arr) (option_map (fun d => mk_ste (Some d) None) dep) false None.
Definition ex_add (id : Z) : msg :=
  M_added 0 id id [ex_word 0; ex_word 1] [mk_stu None (Some 0) None (Some (mk_ste None (Some (6000000 + 600 * id)))) false None;
                                          mk_stu None (Some 1) (Some (mk_ste None (Some (6000600 + 600 * id)))) None false None].
Definition ex_history : list msg :=
  [M_update 0 (0%nat, 3) 0 3 [1; 2; 3] [ex_upd 2 (Some 300) None]; M_cancel 0 (1%nat, 3) 0 3; ex_add 7; ex_add 9].
Example C33_history_example :
  let r := apply_msgs ex_stt ex_history (create_rt_timetable ex_stt 100000) in
  rt_times r = [[4420; 4435; 4435; 4445]; [70; 80]; [90; 100]] /\
  static_ok ex_stt /\ Forall (msg_ok ex_stt) ex_history /\ Forall same_id ex_history /\
  map (fun td => is_transport_active ex_stt r (fst td) (snd td)) [(0%nat, 3); (0%nat, 4); (1%nat, 3)] = [false; true; false] /\
  added_vehicle r 0 7 = Some 1%nat /\ added_vehicle r 0 9 = Some 2%nat /\ resolve_rt r (0%nat, 3) = Some 0%nat.
Proof.
  cbv zeta. split; [vm_compute; reflexivity|]. split.
  { unfold static_ok, kRtBitfieldFlag. cbn [ex_stt s_days]. repeat constructor; lia. }
  split; [unfold ex_history; repeat (constructor; [cbn; lia || exact I|]); constructor|].
  split; [repeat (constructor; [exact I || reflexivity|]); constructor|].
  split; [vm_compute; reflexivity|]. split; [vm_compute; reflexivity|]. split; vm_compute; reflexivity.
Qed.
(** Absolute times that jump back are raised: the monotone pass is needed. *)
Example C33_jump_back_example :
  let us := [mk_stu (Some 1) None None (Some (mk_ste (Some 3600) None)) false None;
             mk_stu (Some 2) None (Some (mk_ste (Some 0) None)) None false None] in
  rt_times (apply_msgs ex_stt [M_update 0 (0%nat, 3) 0 3 [1; 2; 3] us] (create_rt_timetable ex_stt 100000)) = [[4480; 4480; 4480; 4480]].
Proof. vm_compute. reflexivity. Qed.

(** Without the agreement of the ids the lookup is wrong: a feed that sends an added trip twice with
    [trip_properties.trip_id] = 1 and [trip.trip_id] = 2, then another added trip 3.  Trip 3 is stored as vehicle 2 but the
    lookup for trip 3 gives vehicle 1, the second copy of trip 2: later updates of trip 3 overwrite the wrong vehicle. *)
Theorem C36_renamed_added_trip_refuted :
  exists tt base ms,
    let r := apply_msgs tt ms (create_rt_timetable tt base) in
    let r' := apply_msg tt r (M_added 0 3 3 [ex_word 0; ex_word 1] []) in
    added_vehicle r 0 3 = None /\ length (rt_static r) = 2%nat /\ length (rt_static r') = 3%nat /\ added_vehicle r' 0 3 = Some 1%nat.
Proof.
  exists ex_stt, 100000, [M_added 0 1 2 [ex_word 0; ex_word 1] []; M_added 0 1 2 [ex_word 0; ex_word 1] []].
  vm_compute. repeat split.
Qed.

(** Cancelling one trip of a vehicle that runs through several trips (stops [0, 2) of 3) cancels the whole vehicle day. *)
Theorem C35_partial_cancellation_refuted :
  exists tt base t d from to,
    let r := apply_msg tt (create_rt_timetable tt base) (M_cancel 0 (t, d) from to) in
    (to - from < length (s_seq tt t))%nat /\ static_active tt t d = true /\ is_transport_active tt r t d = false.
Proof. exists ex_stt, 100000, 0%nat, 3, 0%nat, 2%nat.
  split; [cbn; lia|]. split; vm_compute; reflexivity.
Qed.
Print Assumptions C33_vehicles_run_forward_in_time.
Print Assumptions C35_only_the_addressed_vehicle_and_day.
Print Assumptions C36_twins_resolve_to_each_other.
Print Assumptions C36_read_after_write.
Print Assumptions C36_added_trip_is_found_again.
