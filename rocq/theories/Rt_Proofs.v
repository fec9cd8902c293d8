(** Lemmas about the real-time model (Rt_Model.v): what an update touches, history invariants. *)
From Coq Require Import List ZArith Lia Bool Arith Sorted.
From Verif Require Import Base Time_Model Calendar_Model Query_Model Rt_Model.
Import ListNotations.
Local Open Scope Z_scope.

(** ** Only the times and stops of vehicle [i] change *)
Record touch (i : nat) (r r' : rtt) : Prop := mk_touch {
  tc_days : rt_days r' = rt_days r;
  tc_bf : rt_bitfields r' = rt_bitfields r;
  tc_base : rt_base r' = rt_base r;
  tc_lookup : rt_lookup r' = rt_lookup r;
  tc_static : rt_static r' = rt_static r;
  tc_ids : rt_ids r' = rt_ids r;
  tc_added : rt_added r' = rt_added r;
  tc_cancelled : rt_cancelled r' = rt_cancelled r;
  tc_tlen : length (rt_times r') = length (rt_times r);
  tc_slen : length (rt_stops r') = length (rt_stops r);
  tc_times : forall j, j <> i -> nth j (rt_times r') [] = nth j (rt_times r) [];
  tc_stops : forall j, j <> i -> nth j (rt_stops r') [] = nth j (rt_stops r) [];
  tc_tilen : length (nth i (rt_times r') []) = length (nth i (rt_times r) []);
  tc_silen : length (nth i (rt_stops r') []) = length (nth i (rt_stops r) []) }.

Lemma touch_refl i r : touch i r r.
Proof. constructor; auto. Qed.
Lemma touch_trans i a b c : touch i a b -> touch i b c -> touch i a c.
Proof.
  intros [] []. constructor; try congruence.
  - intros j Hj. rewrite tc_times1, tc_times0; auto.
  - intros j Hj. rewrite tc_stops1, tc_stops0; auto.
Qed.
Lemma nth_set_nth_len {A} (l : list (list A)) i v :
  length v = length (nth i l []) -> length (nth i (set_nth l i v) []) = length (nth i l []).
Proof.
  intros H. rewrite nth_set_nth, Nat.eqb_refl. cbn [andb]. destruct (Nat.ltb i (length l)); auto.
Qed.
Lemma touch_set_times i r ts : length ts = length (nth i (rt_times r) []) -> touch i r (set_times r i ts).
Proof.
  intros H. constructor; cbn; auto.
  - apply set_nth_length.
  - intros j Hj. now rewrite nth_set_nth_neq by auto.
  - now apply nth_set_nth_len.
Qed.
Lemma touch_set_stops i r ts : length ts = length (nth i (rt_stops r) []) -> touch i r (set_stops r i ts).
Proof.
  intros H. constructor; cbn; auto.
  - apply set_nth_length.
  - intros j Hj. now rewrite nth_set_nth_neq by auto.
  - now apply nth_set_nth_len.
Qed.
Lemma touch_update_time i r k a t : touch i r (update_time r i k a t).
Proof. unfold update_time. apply touch_set_times. apply set_nth_length. Qed.

Section Loop.
  Variables (tt : stt) (x : run) (i : nat) (lseq : list Z).
  Lemma touch_update_delay r k a d m : touch i r (fst (update_delay tt r x i k a d m)).
  Proof. unfold update_delay. cbn [fst]. apply touch_update_time. Qed.
  Lemma touch_update_event r k a e p : touch i r (fst (update_event tt r x i k a e p)).
  Proof.
    unfold update_event. destruct (e_delay e), (r_t x); try apply touch_update_delay; cbn [fst]; apply touch_update_time.
  Qed.
  Lemma touch_propagate r k a pred :
    touch i r (fst (match pred with
                    | Some p => let (r', p') := update_delay tt r x i k a (snd p) (Some (fst p)) in (r', Some p')
                    | None => (r, pred) end)).
  Proof.
    destruct pred as [p|]; [|apply touch_refl].
    pose proof (touch_update_delay r k a (snd p) (Some (fst p))) as H.
    destruct (update_delay tt r x i k a (snd p) (Some (fst p))). exact H.
  Qed.
  Lemma touch_arrival r u k pred : touch i r (fst (update_arrival tt x i r u k pred)).
  Proof.
    unfold update_arrival. destruct (Nat.eqb k (r_from x)); [apply touch_refl|].
    destruct u as [v|]; [|apply touch_propagate]. destruct (u_info (u_arr v)); [|apply touch_propagate].
    destruct (u_arr v) as [e|]; [|apply touch_refl].
    pose proof (touch_update_event r k true e (Some (fallback_pred r i pred k true))) as H.
    destruct (update_event _ _ _ _ _ _ _ _). exact H.
  Qed.
  Lemma touch_departure r u k pred : touch i r (fst (update_departure tt x i lseq r u k pred)).
  Proof.
    unfold update_departure.
    match goal with |- context [if ?c then _ else _] => destruct c end.
    - destruct u as [v|]; [|apply touch_refl]. destruct (u_arr v) as [e|]; [|apply touch_refl].
      pose proof (touch_update_event r k false e (Some 0)) as H. destruct (update_event _ _ _ _ _ _ _ _). exact H.
    - destruct (Nat.eqb k (length lseq - 1)); [apply touch_refl|].
      destruct u as [v|]; [|apply touch_propagate]. destruct (u_info (u_dep v)); [|apply touch_propagate].
      destruct (u_dep v) as [e|]; [|apply touch_refl].
      pose proof (touch_update_event r k false e (Some (fallback_pred r i pred k false))) as H.
      destruct (update_event _ _ _ _ _ _ _ _). exact H.
  Qed.
  Lemma touch_update_stop r u k r' : update_stop tt i lseq r u k = Some r' -> touch i r r'.
  Proof.
    unfold update_stop. intros H.
    assert (P : forall v, touch i r (set_stops r i (set_nth (nth i (rt_stops r) []) k v)))
      by (intros v; apply touch_set_stops; apply set_nth_length).
    destruct (u_skipped u); [injection H as <-; apply P|].
    destruct (u_assigned u) as [a|].
    - destruct (s_find_loc tt a) as [l|]; [|discriminate].
      destruct (existsb _ _); [|discriminate]. injection H as <-. apply P.
    - match goal with H : match ?c with true => _ | false => _ end = _ |- _ => destruct c end.
      + destruct (s_find_loc tt _) as [l|]; [|discriminate].
        destruct (existsb _ _); [|discriminate]. injection H as <-. apply P.
      + injection H as <-. apply P.
  Qed.
  Lemma touch_stop_loop seqs : forall k us r pred, touch i r (stop_loop tt x i lseq seqs k us r pred).
  Proof.
    induction seqs as [|s seqs IH]; intros k us r pred; cbn [stop_loop]; [apply touch_refl|].
    destruct (next_update tt x lseq us k (s :: seqs)) as [us1 m] eqn:E.
    assert (P : forall u us2 r1,
      touch i r1 (let (r2, pred2) := update_arrival tt x i r1 u k pred in
                  let (r3, pred3) := update_departure tt x i lseq r2 u k pred2 in
                  stop_loop tt x i lseq seqs (S k) us2 r3 pred3)).
    { intros u us2 r1. pose proof (touch_arrival r1 u k pred) as HA.
      destruct (update_arrival tt x i r1 u k pred) as [r2 p2]. cbn [fst] in HA.
      pose proof (touch_departure r2 u k p2) as HD.
      destruct (update_departure tt x i lseq r2 u k p2) as [r3 p3]. cbn [fst] in HD.
      eapply touch_trans; [exact HA|]. eapply touch_trans; [exact HD|]. apply IH. }
    destruct us1 as [|u us2]; [apply P|]. destruct m; [|apply P].
    destruct (update_stop tt i lseq r u k) as [r1|] eqn:ES; [|apply IH].
    eapply touch_trans; [eapply touch_update_stop; exact ES|]. apply P.
  Qed.
End Loop.

(** ** The final pass *)
Definition nondecreasing (ts : list Z) : Prop := forall a b, (a <= b < length ts)%nat -> nth a ts 0 <= nth b ts 0.

Lemma monotone_length ts : forall p, length (monotone p ts) = length ts.
Proof. induction ts as [|t ts IH]; intros p; cbn [monotone length]; auto. Qed.
Lemma monotone_ge ts : forall p j, (j < length ts)%nat -> p <= nth j (monotone p ts) 0.
Proof.
  induction ts as [|t ts IH]; intros p j Hj; cbn [length] in Hj; [lia|]. cbn [monotone].
  destruct j as [|j]; cbn [nth].
  - destruct (Z.ltb_spec t p); lia.
  - specialize (IH (if t <? p then p else t) j ltac:(lia)). destruct (Z.ltb_spec t p); lia.
Qed.
Lemma monotone_sorted ts : forall p, nondecreasing (monotone p ts).
Proof.
  induction ts as [|t ts IH]; intros p a b Hab; rewrite monotone_length in Hab; cbn [length] in Hab; [lia|].
  cbn [monotone]. destruct a as [|a], b as [|b]; cbn [nth]; try lia.
  - apply monotone_ge; lia.
  - apply IH. rewrite monotone_length. lia.
Qed.
(** Each time is the maximum of its own value and the preceding result. *)
Lemma monotone_step ts : forall p j, (j < length ts)%nat ->
  nth j (monotone p ts) 0 = Z.max (nth j ts 0) (match j with O => p | S j' => nth j' (monotone p ts) 0 end).
Proof.
  induction ts as [|t ts IH]; intros p j Hj; cbn [length] in Hj; [lia|]. cbn [monotone].
  destruct j as [|j]; cbn [nth].
  - destruct (Z.ltb_spec t p); lia.
  - rewrite IH by lia. destruct j; reflexivity.
Qed.

(** ** [update_run_rt]: what remains apart from times and stops of [i] *)
Lemma cancel_run_frame tt r x :
  let r' := cancel_run tt r x in
  rt_times r' = rt_times r /\ rt_stops r' = rt_stops r /\ rt_base r' = rt_base r /\ rt_lookup r' = rt_lookup r /\
  rt_static r' = rt_static r /\ rt_ids r' = rt_ids r /\ rt_added r' = rt_added r.
Proof.
  unfold cancel_run. destruct (r_rt x), (r_t x) as [[t d]|]; cbn; auto 10.
Qed.

Section RunRt.
  Variables (tt : stt) (x : run) (i : nat) (lseq : list Z).
  (** The state before the possible cancellation. *)
  Definition before_cancel (r : rtt) (seqs : list Z) (us : list st_update) : rtt :=
    let pred := if scheduled x && Nat.ltb 0 (r_from x) then Some (unix_event_time r i (r_from x) true, 0) else None in
    let r1 := stop_loop tt x i lseq seqs (if scheduled x then r_from x else 0%nat) us r pred in
    set_times r1 i (monotone (-32768) (nth i (rt_times r1) [])).
  Lemma update_run_rt_unfold r seqs us :
    update_run_rt tt x i lseq r seqs us =
      let r2 := before_cancel r seqs us in
      if (n_active_stops (nth i (rt_stops r2) []) <=? 1)%nat then cancel_run tt r2 x else r2.
  Proof. reflexivity. Qed.
  Lemma touch_before_cancel r seqs us : touch i r (before_cancel r seqs us).
  Proof.
    unfold before_cancel. eapply touch_trans; [apply touch_stop_loop|]. apply touch_set_times. apply monotone_length.
  Qed.
  Lemma before_cancel_sorted r seqs us : nondecreasing (nth i (rt_times (before_cancel r seqs us)) []).
  Proof.
    unfold before_cancel. cbn [set_times rt_times]. rewrite nth_set_nth, Nat.eqb_refl. cbn [andb].
    match goal with |- context [rt_times ?z] => generalize z; intros r1 end.
    destruct (Nat.ltb_spec i (length (rt_times r1))) as [H|H].
    - apply monotone_sorted.
    - rewrite nth_overflow by lia. intros a b Hab. cbn in Hab. lia.
  Qed.
  (** Everything that is not a bit field or a cancellation flag changes as in [before_cancel]. *)
  Lemma update_run_rt_frame r seqs us :
    let r2 := before_cancel r seqs us in
    let r' := update_run_rt tt x i lseq r seqs us in
    rt_times r' = rt_times r2 /\ rt_stops r' = rt_stops r2 /\ rt_base r' = rt_base r /\ rt_lookup r' = rt_lookup r /\
    rt_static r' = rt_static r /\ rt_ids r' = rt_ids r /\ rt_added r' = rt_added r.
  Proof.
    cbv zeta. rewrite update_run_rt_unfold. cbv zeta.
    pose proof (touch_before_cancel r seqs us) as T. destruct T.
    destruct (_ <=? 1)%nat.
    - destruct (cancel_run_frame tt (before_cancel r seqs us) x) as (A & B & C & D & E & F & G).
      rewrite A, B, C, D, E, F, G. auto 10.
    - auto 10.
  Qed.
End RunRt.

(** ** Traffic days under copy on write *)
Lemma rt_bitfield_idx_val n : (0 < n)%nat -> Z.of_nat n <= kRtBitfieldFlag -> rt_bitfield_idx n = kRtBitfieldFlag + (Z.of_nat n - 1).
Proof.
  intros H0 H. unfold rt_bitfield_idx, kRtBitfieldFlag in *. set (a := Z.of_nat n - 1) in *.
  assert (Ha : 0 <= a < 2 ^ 31) by (unfold a; lia).
  assert (E : Z.land a 2147483648 = 0).
  { change 2147483648 with (2 ^ 31). apply Z.bits_inj'. intros m Hm.
    rewrite Z.land_spec, Z.bits_0, Z.pow2_bits_eqb by lia.
    destruct (Z.eqb_spec 31 m) as [<-|]; [|apply andb_false_r]. rewrite andb_true_r.
    destruct (Z.eq_dec a 0) as [->|]; [apply Z.testbit_0_l|].
    apply Z.bits_above_log2; [lia|]. apply Z.log2_lt_pow2; lia. }
  rewrite <- Z.lxor_lor by exact E. rewrite <- Z.add_nocarry_lxor by exact E. rewrite Z.mod_small by lia. lia.
Qed.

(** The per vehicle bit field indices are valid. *)
Record days_wf (tt : stt) (r : rtt) : Prop := mk_days_wf {
  dw_len : length (rt_days r) = length (s_days tt);
  dw_ok : forall t, (t < length (rt_days r))%nat ->
            0 <= nth t (rt_days r) 0 < kRtBitfieldFlag \/
            exists n, (n < length (rt_bitfields r))%nat /\ nth t (rt_days r) 0 = kRtBitfieldFlag + Z.of_nat n;
  dw_size : Z.of_nat (length (rt_bitfields r)) < kRtBitfieldFlag }.

Lemma traffic_days_static tt r i : 0 <= i < kRtBitfieldFlag -> traffic_days tt r i = nth (Z.to_nat i) (s_bitfields tt) bf_empty.
Proof. intros H. unfold traffic_days. rewrite Z.div_small by lia. reflexivity. Qed.
Lemma traffic_days_rt tt r n : Z.of_nat n < kRtBitfieldFlag ->
  traffic_days tt r (kRtBitfieldFlag + Z.of_nat n) = nth n (rt_bitfields r) bf_empty.
Proof.
  intros H. unfold traffic_days.
  replace ((kRtBitfieldFlag + Z.of_nat n) / kRtBitfieldFlag) with 1
    by (unfold kRtBitfieldFlag in *; apply (Z.div_unique _ _ _ (Z.of_nat n)); lia).
  cbn [Z.odd]. replace ((kRtBitfieldFlag + Z.of_nat n) mod kRtBitfieldFlag) with (Z.of_nat n)
    by (unfold kRtBitfieldFlag in *; apply (Z.mod_unique _ _ 1); lia).
  now rewrite Nat2Z.id.
Qed.

Lemma disable_day_wf tt r t day :
  days_wf tt r -> (t < length (s_days tt))%nat -> Z.of_nat (length (rt_bitfields r)) + 1 < kRtBitfieldFlag ->
  days_wf tt (disable_day tt r t day).
Proof.
  intros [L O S] Ht Hs. constructor; cbn [disable_day rt_days rt_bitfields].
  - now rewrite set_nth_length.
  - rewrite set_nth_length. intros t' Ht'. rewrite nth_set_nth. rewrite app_length. cbn [length].
    destruct (Nat.eqb t t' && Nat.ltb t (length (rt_days r)))%bool.
    + right. exists (length (rt_bitfields r)). split; [lia|].
      rewrite rt_bitfield_idx_val by lia. lia.
    + destruct (O t' Ht') as [H|(n & Hn & E)]; [left; exact H|]. right. exists n. split; [lia|exact E].
  - rewrite app_length. cbn [length]. lia.
Qed.
Lemma disable_day_active tt r t day t' d :
  days_wf tt r -> (t < length (s_days tt))%nat -> (t' < length (s_days tt))%nat -> Z.of_nat (length (rt_bitfields r)) + 1 < kRtBitfieldFlag ->
  is_transport_active tt (disable_day tt r t day) t' d =
    is_transport_active tt r t' d && negb (Nat.eqb t t' && (d =? day)).
Proof.
  intros [L O S] Ht Ht' Hs. unfold is_transport_active, bf_test. cbn [disable_day rt_days].
  rewrite nth_set_nth. destruct (Nat.ltb_spec t (length (rt_days r))) as [_|]; [|lia]. rewrite andb_true_r.
  destruct (Nat.eqb_spec t t') as [->|Hn]; cbn [andb negb].
  - rewrite rt_bitfield_idx_val by lia.
    replace (kRtBitfieldFlag + (Z.of_nat (Datatypes.S (length (rt_bitfields r))) - 1)) with (kRtBitfieldFlag + Z.of_nat (length (rt_bitfields r))) by lia.
    rewrite traffic_days_rt by lia. cbn [disable_day rt_bitfields].
    rewrite app_nth2 by lia. rewrite Nat.sub_diag. cbn [nth]. unfold bf_set.
    destruct (d =? day); cbn [negb]; [now rewrite andb_false_r|now rewrite andb_true_r].
  - rewrite andb_true_r. destruct (O t' ltac:(lia)) as [H|(n & Hn' & E)].
    + now rewrite !traffic_days_static by auto.
    + rewrite E. rewrite !traffic_days_rt by lia. cbn [disable_day rt_bitfields]. now rewrite app_nth1 by lia.
Qed.

(** ** Building blocks and the arrays [rt_days], [rt_bitfields] *)
Lemma update_run_rt_days tt x i lseq r seqs us :
  (rt_days (update_run_rt tt x i lseq r seqs us) = rt_days r /\
   rt_bitfields (update_run_rt tt x i lseq r seqs us) = rt_bitfields r) \/
  exists t day r1, r_t x = Some (t, day) /\ rt_days r1 = rt_days r /\ rt_bitfields r1 = rt_bitfields r /\
    rt_days (update_run_rt tt x i lseq r seqs us) = rt_days (disable_day tt r1 t day) /\
    rt_bitfields (update_run_rt tt x i lseq r seqs us) = rt_bitfields (disable_day tt r1 t day).
Proof.
  rewrite update_run_rt_unfold. cbv zeta.
  pose proof (touch_before_cancel tt x i lseq r seqs us) as T. destruct T.
  destruct (_ <=? 1)%nat; [|left; auto].
  unfold cancel_run. set (r1 := match r_rt x with Some k => _ | None => _ end).
  assert (E1 : rt_days r1 = rt_days r) by (unfold r1; destruct (r_rt x); exact tc_days0).
  assert (E2 : rt_bitfields r1 = rt_bitfields r) by (unfold r1; destruct (r_rt x); exact tc_bf0).
  clearbody r1. destruct (r_t x) as [[t day]|].
  - right. exists t, day, r1. auto.
  - left. auto.
Qed.
Lemma active_ext tt r r' t d : rt_days r' = rt_days r -> rt_bitfields r' = rt_bitfields r ->
  is_transport_active tt r' t d = is_transport_active tt r t d.
Proof. intros A B. unfold is_transport_active, traffic_days. now rewrite A, B. Qed.
Lemma days_wf_ext tt r r' : rt_days r' = rt_days r -> rt_bitfields r' = rt_bitfields r -> days_wf tt r -> days_wf tt r'.
Proof. intros A B [L O S]. constructor; rewrite ?A, ?B; auto. Qed.

(** [r'] results from [r] by disabling (t, day) [n] times or not at all. *)
Inductive disabled (tt : stt) (t : nat) (day : Z) : nat -> rtt -> rtt -> Prop :=
| dis_same r r' : rt_days r' = rt_days r -> rt_bitfields r' = rt_bitfields r -> disabled tt t day 0 r r'
| dis_step n r r1 r' : disabled tt t day n r r1 -> rt_days r' = rt_days (disable_day tt r1 t day) ->
                     rt_bitfields r' = rt_bitfields (disable_day tt r1 t day) -> disabled tt t day (S n) r r'.
Lemma disabled_active tt t day n r r' :
  disabled tt t day n r r' -> days_wf tt r -> (t < length (s_days tt))%nat ->
  Z.of_nat (length (rt_bitfields r)) + Z.of_nat n < kRtBitfieldFlag ->
  days_wf tt r' /\ length (rt_bitfields r') = (length (rt_bitfields r) + n)%nat /\
  forall t' d, (t' < length (s_days tt))%nat ->
    is_transport_active tt r' t' d =
      is_transport_active tt r t' d && negb ((1 <=? n)%nat && Nat.eqb t t' && (d =? day)).
Proof.
  intros D W Ht. induction D as [r r' A B|n r r1 r' D IH A B]; intros Hs.
  - split; [eapply days_wf_ext; eauto|]. split; [rewrite B; lia|]. intros t' d _. cbn [Nat.leb andb negb].
    rewrite andb_true_r. now apply active_ext.
  - destruct (IH W ltac:(lia)) as (W1 & L1 & A1). clear IH.
    split; [|split].
    + eapply days_wf_ext; [exact A|exact B|]. apply disable_day_wf; auto. lia.
    + rewrite B. cbn [disable_day rt_bitfields]. rewrite app_length. cbn [length]. lia.
    + intros t' d Ht'. rewrite (active_ext tt _ _ t' d A B). rewrite disable_day_active by (auto; lia).
      rewrite A1 by auto. replace (1 <=? S n)%nat with true by reflexivity. cbn [andb].
      destruct (is_transport_active tt r t' d), (1 <=? n)%nat, (Nat.eqb t t'), (d =? day); reflexivity.
Qed.
Lemma disabled_ext tt t day n r0 r r' : rt_days r0 = rt_days r -> rt_bitfields r0 = rt_bitfields r ->
  disabled tt t day n r r' -> disabled tt t day n r0 r'.
Proof.
  intros A B D. revert r0 A B. induction D as [r r' A' B'|n r r1 r' D IH A' B']; intros r0 A B.
  - apply dis_same; congruence.
  - eapply dis_step; eauto.
Qed.
Lemma disabled_trans tt t day n r r1 : disabled tt t day n r r1 -> forall m r2, disabled tt t day m r1 r2 -> disabled tt t day (m + n) r r2.
Proof.
  intros D m r2 D2. induction D2 as [a b A B|m a a1 b D2 IH A B].
  - destruct D as [r0 r' A' B'|n r0 r1 r' D' A' B']; cbn [Nat.add].
    + apply dis_same; congruence.
    + eapply dis_step; [exact D'| |]; congruence.
  - cbn [Nat.add]. eapply dis_step; [exact (IH D)| |]; auto.
Qed.
Lemma update_run_rt_disabled tt x i lseq r seqs us t day : r_t x = Some (t, day) ->
  exists n, (n <= 1)%nat /\ disabled tt t day n r (update_run_rt tt x i lseq r seqs us).
Proof.
  intros E. destruct (update_run_rt_days tt x i lseq r seqs us) as [[A B]|(t' & d' & r1 & E' & A & B & A' & B')].
  - exists 0%nat. split; [lia|]. apply dis_same; auto.
  - rewrite E in E'. injection E' as <- <-. exists 1%nat. split; [lia|].
    eapply dis_step; [apply dis_same; [exact A|exact B]|exact A'|exact B'].
Qed.
Lemma update_run_rt_not_disabled tt x i lseq r seqs us : r_t x = None ->
  rt_days (update_run_rt tt x i lseq r seqs us) = rt_days r /\
  rt_bitfields (update_run_rt tt x i lseq r seqs us) = rt_bitfields r.
Proof.
  intros E. destruct (update_run_rt_days tt x i lseq r seqs us) as [[A B]|(t' & d' & r1 & E' & A)]; auto. congruence.
Qed.

(** ** Lookups: hash map and string store *)
Lemma transport_eqb_spec a b : reflect (a = b) (transport_eqb a b).
Proof.
  destruct a as [a1 a2], b as [b1 b2]. unfold transport_eqb. cbn [fst snd].
  destruct (Nat.eqb_spec a1 b1), (Z.eqb_spec a2 b2); cbn [andb]; constructor; congruence.
Qed.
Lemma lookup_find_app l t x u : lookup_find l t = None ->
  lookup_find (l ++ [(t, x)]) u = if transport_eqb t u then Some x else lookup_find l u.
Proof.
  unfold lookup_find. intros H. induction l as [|e l IH]; cbn [app find].
  - cbn [fst snd]. now destruct (transport_eqb t u).
  - cbn [find] in H. destruct (transport_eqb (fst e) t) eqn:E; [discriminate|].
    destruct (transport_eqb (fst e) u) eqn:E2.
    + destruct (transport_eqb_spec t u) as [->|]; [congruence|reflexivity].
    + apply IH. exact H.
Qed.
Lemma id_find_app l s u :
  id_find (l ++ [s]) u = match id_find l u with Some k => Some k | None => if s =? u then Some (length l) else None end.
Proof.
  induction l as [|y l IH]; cbn [app id_find length]; [reflexivity|].
  destruct (y =? u); [reflexivity|]. rewrite IH. destruct (id_find l u); [reflexivity|].
  destruct (s =? u); reflexivity.
Qed.
Lemma id_find_lt l s k : id_find l s = Some k -> (k < length l)%nat.
Proof.
  revert k; induction l as [|y l IH]; cbn [id_find length]; intros k H; [discriminate|].
  destruct (y =? s); [injection H as <-; lia|]. destruct (id_find l s) as [n|]; [|discriminate].
  injection H as <-. specialize (IH n eq_refl). lia.
Qed.
Lemma id_find_inj l s u k : id_find l s = Some k -> id_find l u = Some k -> s = u.
Proof.
  revert k; induction l as [|y l IH]; cbn [id_find]; intros k Hs Hu; [discriminate|].
  destruct (Z.eqb_spec y s), (Z.eqb_spec y u).
  - congruence.
  - destruct (id_find l u); [|discriminate]. congruence.
  - destruct (id_find l s); [|discriminate]. congruence.
  - destruct (id_find l s) as [a|], (id_find l u) as [b|]; try discriminate.
    apply (IH a); congruence.
Qed.
