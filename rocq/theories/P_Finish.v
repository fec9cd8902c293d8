(** C31: removal of duplicate vehicles; C32: traffic days of routes. *)
From Coq Require Import List ZArith Bool Arith Lia Relations.
From Verif Require Import Base Time_Model Calendar_Model Query_Model P_Query Finish_Model.
Import ListNotations.
Local Open Scope Z_scope.

(** * Specification *)
(** A timetable as the loader produces it: bit fields have 512 bits, number 0 is empty, indices are in range. *)
Record tt_ok (tt : dtt) : Prop := mk_tt_ok {
  to_bits : forall bf d, In bf (dt_bitfields tt) -> bf d = true -> 0 <= d < 512;
  to_zero : forall d, nth 0 (dt_bitfields tt) bf_empty d = false;
  to_idx : forall i, In i (dt_days tt) -> (i < length (dt_bitfields tt))%nat }.

(** * Bit fields *)
Lemma days_of_in d : In d days_of <-> 0 <= d < 512.
Proof.
  unfold days_of. rewrite in_map_iff. split.
  - intros (k & <- & Hk). apply in_seq in Hk. lia.
  - intros H. exists (Z.to_nat d). split; [lia|]. apply in_seq. lia.
Qed.
Global Opaque days_of.
Lemma bfNone_spec b : bfNone b = true <-> forall d, 0 <= d < 512 -> b d = false.
Proof.
  unfold bfNone. rewrite negb_true_iff. split.
  - intros H d Hd. destruct (b d) eqn:E; auto. exfalso.
    assert (existsb b days_of = true) by (apply existsb_exists; exists d; split; [apply days_of_in; auto|auto]). congruence.
  - intros H. destruct (existsb b days_of) eqn:E; auto. apply existsb_exists in E. destruct E as (d & Hd & E).
    apply days_of_in in Hd. rewrite H in E; auto.
Qed.
Lemma bfEq_spec a b : bfEq a b = true <-> forall d, 0 <= d < 512 -> a d = b d.
Proof.
  unfold bfEq. rewrite forallb_forall. split.
  - intros H d Hd. apply Bool.eqb_prop, H, days_of_in; auto.
  - intros H d Hd. apply days_of_in in Hd. rewrite H by auto. apply Bool.eqb_reflx.
Qed.
Lemma is_superset_spec x y : is_superset x y = true <-> forall d, 0 <= d < 512 -> y d = true -> x d = true.
Proof.
  unfold is_superset. rewrite bfEq_spec. unfold bfAnd. split.
  - intros H d Hd Hy. specialize (H d Hd). rewrite Hy in H. destruct (x d); auto.
  - intros H d Hd. destruct (y d) eqn:E; [rewrite H; auto|apply andb_false_r].
Qed.

(** * merge *)
Lemma active_range tt t d : tt_ok tt -> is_transport_active tt t d = true -> 0 <= d < 512.
Proof.
  intros H Ha. unfold is_transport_active, bf_test, dt_bits in Ha.
  destruct (Nat.lt_ge_cases (nth t (dt_days tt) 0%nat) (length (dt_bitfields tt))) as [Hl|Hl].
  - eapply (to_bits tt H); [apply nth_In; exact Hl|exact Ha].
  - rewrite nth_overflow in Ha by lia. discriminate.
Qed.
Lemma set_nth_in {A} (l : list A) n x y : In y (set_nth l n x) -> y = x \/ In y l.
Proof.
  revert n. induction l as [|z l IH]; intros [|n]; cbn [set_nth]; simpl; auto.
  - intuition.
  - intros [->|H]; auto. apply IH in H. intuition.
Qed.

Lemma nullify_spec tt x y : tt_ok tt -> (x < length (dt_days tt))%nat ->
  tt_ok (merge_and_nullify tt x y) /\ length (dt_days (merge_and_nullify tt x y)) = length (dt_days tt) /\
  (forall t d, is_transport_active (merge_and_nullify tt x y) t d = if Nat.eqb t x then false else is_transport_active tt t d).
Proof.
  intros H Hx. split; [|split].
  - constructor; cbn [merge_and_nullify dt_bitfields dt_days].
    + apply (to_bits tt H). + apply (to_zero tt H).
    + intros i Hi. apply set_nth_in in Hi. destruct Hi as [->|Hi]; [|apply (to_idx tt H); auto].
      destruct (dt_days tt) as [|i0 l] eqn:E; [simpl in Hx; lia|].
      assert (i0 < length (dt_bitfields tt))%nat by (apply (to_idx tt H); rewrite E; now left). lia.
  - cbn. apply set_nth_length.
  - intros t d. unfold is_transport_active, bf_test, dt_bits. cbn [merge_and_nullify dt_bitfields dt_days].
    destruct (Nat.eqb_spec t x) as [->|Hn].
    + rewrite nth_set_nth_eq by auto. apply (to_zero tt H).
    + rewrite nth_set_nth_neq by auto. reflexivity.
Qed.

Lemma merge_spec tt size a b : tt_ok tt -> a <> b -> (a < length (dt_days tt))%nat -> (b < length (dt_days tt))%nat ->
  let tt' := fst (merge tt size a b) in
  let m := snd (merge tt size a b) in
  tt_ok tt' /\ length (dt_days tt') = length (dt_days tt) /\
  (forall t d, t <> a -> t <> b -> is_transport_active tt' t d = is_transport_active tt t d) /\
  (forall t d, is_transport_active tt' t d = true -> is_transport_active tt t d = true) /\
  (forall d, is_transport_active tt' a d || is_transport_active tt' b d = is_transport_active tt a d || is_transport_active tt b d) /\
  (forall d, is_transport_active tt' a d && is_transport_active tt' b d = false) /\
  (m = true <-> exists d, is_transport_active tt a d && is_transport_active tt b d = true) /\
  (m = false -> tt' = tt).
Proof.
  intros H Hab Ha Hb. unfold merge. set (bf_a := dt_bits tt a). set (bf_b := dt_bits tt b).
  assert (Aa : forall d, is_transport_active tt a d = bf_a d) by reflexivity.
  assert (Ab : forall d, is_transport_active tt b d = bf_b d) by reflexivity.
  assert (Ra : forall d, bf_a d = true -> 0 <= d < 512) by (intros d; rewrite <- Aa; apply active_range; auto).
  assert (Rb : forall d, bf_b d = true -> 0 <= d < 512) by (intros d; rewrite <- Ab; apply active_range; auto).
  destruct (bfNone (bfAnd bf_a bf_b)) eqn:En.
  { cbn [fst snd]. rewrite bfNone_spec in En. assert (En' : forall d, bf_a d && bf_b d = false).
    { intros d. destruct (bf_a d) eqn:E; auto. specialize (En d (Ra d E)). unfold bfAnd in En. now rewrite E in En. }
    split; auto. split; auto. split; auto. split; auto. split; auto. split; [intros d; rewrite Aa, Ab; auto|].
    split; auto. split; [discriminate|]. intros [d Hd]. rewrite Aa, Ab, En' in Hd. discriminate. }
  assert (Hov : exists d, is_transport_active tt a d && is_transport_active tt b d = true).
  { unfold bfNone in En. apply negb_false_iff in En. apply existsb_exists in En. destruct En as (d & _ & E). exists d. rewrite Aa, Ab. exact E. }
  destruct (is_superset bf_b bf_a) eqn:E1; [|destruct (is_superset bf_a bf_b) eqn:E2]; cbn [fst snd].
  - rewrite is_superset_spec in E1. destruct (nullify_spec tt a b H Ha) as (N1 & N2 & N3).
    split; auto. split; auto. split; [intros t d Ht _; rewrite N3; destruct (Nat.eqb_spec t a); [tauto|auto]|].
    split; [intros t d; rewrite N3; destruct (Nat.eqb t a); [discriminate|auto]|].
    assert (Eb : Nat.eqb b a = false) by (apply Nat.eqb_neq; auto).
    split; [intros d; rewrite !N3, Nat.eqb_refl, Eb, Aa, Ab; destruct (bf_a d) eqn:E; auto; rewrite (E1 d) by auto; auto|].
    split; [intros d; rewrite !N3, Nat.eqb_refl; auto|]. split; [split; auto|discriminate].
  - rewrite is_superset_spec in E2. destruct (nullify_spec tt b a H Hb) as (N1 & N2 & N3).
    split; auto. split; auto. split; [intros t d _ Ht; rewrite N3; destruct (Nat.eqb_spec t b); [tauto|auto]|].
    split; [intros t d; rewrite N3; destruct (Nat.eqb t b); [discriminate|auto]|].
    assert (Eb : Nat.eqb a b = false) by (apply Nat.eqb_neq; auto).
    split; [intros d; rewrite !N3, Nat.eqb_refl, Eb, Aa, Ab; destruct (bf_b d) eqn:E; [rewrite (E2 d) by auto; auto|auto]|].
    split; [intros d; rewrite !N3, Nat.eqb_refl; apply andb_false_r|]. split; [split; auto|discriminate].
  - set (nb := bfAnd bf_a (bfNot (bfAnd bf_a bf_b))). set (tt' := mk_dtt _ _ _ _ _).
    assert (Enb : forall d, nb d = bf_a d && negb (bf_b d)).
    { intros d. unfold nb, bfAnd, bfNot. destruct (bf_a d) eqn:E; auto. apply Ra in E. cbn [andb].
      assert (E0 : (0 <=? d) && (d <? 512) = true) by (apply andb_true_iff; split; [apply Z.leb_le|apply Z.ltb_lt]; lia). now rewrite E0. }
    assert (N3 : forall t d, is_transport_active tt' t d = if Nat.eqb t a then nb d else is_transport_active tt t d).
    { intros t d. unfold is_transport_active, bf_test, dt_bits, tt'. cbn [dt_bitfields dt_days].
      destruct (Nat.eqb_spec t a) as [->|Hn].
      - rewrite nth_set_nth_eq by auto. rewrite app_nth2 by lia. rewrite Nat.sub_diag. reflexivity.
      - rewrite nth_set_nth_neq by auto. destruct (Nat.lt_ge_cases t (length (dt_days tt))) as [Hl|Hl].
        + rewrite app_nth1; auto. apply (to_idx tt H), nth_In, Hl.
        + assert (E0 : nth t (dt_days tt) 0%nat = 0%nat) by (apply nth_overflow; auto). rewrite E0.
          rewrite app_nth1; auto. destruct (dt_days tt) as [|i l] eqn:E; [simpl in Ha; lia|].
          assert (i < length (dt_bitfields tt))%nat by (apply (to_idx tt H); rewrite E; now left). lia. }
    split.
    { assert (Hpos : (0 < length (dt_bitfields tt))%nat).
      { destruct (dt_days tt) as [|i l] eqn:E; [simpl in Ha; lia|].
        assert (i < length (dt_bitfields tt))%nat by (apply (to_idx tt H); rewrite E; now left). lia. }
      constructor; unfold tt'; cbn [dt_bitfields dt_days].
      - intros bf d Hbf Hd. apply in_app_iff in Hbf. destruct Hbf as [Hbf|[<-|[]]]; [eapply (to_bits tt H); eauto|].
        rewrite Enb in Hd. apply andb_true_iff in Hd. apply Ra. tauto.
      - intros d. rewrite app_nth1 by auto. apply (to_zero tt H).
      - intros i Hi. rewrite app_length. cbn [length]. apply set_nth_in in Hi. destruct Hi as [->|Hi]; [lia|].
        apply (to_idx tt H) in Hi. lia. }
    split; [unfold tt'; cbn; apply set_nth_length|].
    assert (Eb : Nat.eqb b a = false) by (apply Nat.eqb_neq; auto).
    split; [intros t d Ht _; rewrite N3; destruct (Nat.eqb_spec t a); [tauto|auto]|].
    split; [intros t d; rewrite N3; destruct (Nat.eqb_spec t a) as [->|]; auto; intros E; rewrite Enb in E; apply andb_true_iff in E; exact (proj1 E)|].
    split; [intros d; rewrite !N3, Nat.eqb_refl, Eb, Aa, Ab, Enb; destruct (bf_a d), (bf_b d); auto|].
    split; [intros d; rewrite !N3, Nat.eqb_refl, Eb, Ab, Enb; destruct (bf_a d), (bf_b d); auto|].
    split; [split; auto|discriminate].
Qed.

(** C31: merging two vehicles removes exactly the common days from one of them. *)
Theorem C31_merge_pair : forall tt size a b, tt_ok tt -> a <> b -> (a < length (dt_days tt))%nat -> (b < length (dt_days tt))%nat ->
  let tt' := fst (merge tt size a b) in
  (forall t d, t <> a -> t <> b -> is_transport_active tt' t d = is_transport_active tt t d) /\
  (forall t d, is_transport_active tt' t d = true -> is_transport_active tt t d = true) /\
  (forall d, is_transport_active tt a d = true \/ is_transport_active tt b d = true ->
     (is_transport_active tt' a d = true /\ is_transport_active tt' b d = false) \/
     (is_transport_active tt' a d = false /\ is_transport_active tt' b d = true)) /\
  (snd (merge tt size a b) = true <-> exists d, is_transport_active tt a d = true /\ is_transport_active tt b d = true).
Proof.
  intros tt size a b H Hab Ha Hb tt'. destruct (merge_spec tt size a b H Hab Ha Hb) as (_ & _ & M1 & M2 & M3 & M4 & M5 & _).
  fold tt' in M1, M2, M3, M4. split; auto. split; auto. split.
  - intros d Hd. specialize (M3 d). specialize (M4 d).
    assert (E : is_transport_active tt a d || is_transport_active tt b d = true) by (apply orb_true_iff; auto).
    rewrite E in M3. destruct (is_transport_active tt' a d), (is_transport_active tt' b d); auto; discriminate.
  - rewrite M5. split; intros [d Hd]; exists d; [apply andb_true_iff in Hd; auto|apply andb_true_iff; auto].
Qed.

(** * Histories *)
Section History.
  Variable L : locations.
  Variable routes : list froute.
  Variable location_routes : nat -> list nat.
  Variable event_mam : nat -> nat -> nat -> bool -> delta.
  Notation rt := (route routes).
  (** All events of a vehicle that serves [n] stops: (stop, is arrival). *)
  Definition events (n : nat) : list (nat * bool) :=
    flat_map (fun i => (if Nat.eqb i 0 then [] else [(i, true)]) ++ (if Nat.eqb i (n - 1) then [] else [(i, false)])) (seq 0 n).
  Definition minutes (r t : nat) (e : nat * bool) : Z := delta_count (event_mam r t (fst e) (snd e)).
  (** Total deviation of two vehicles, in minutes. *)
  Definition deviation (ra rb a b : nat) : Z :=
    fold_right Z.add 0 (map (fun e => Z.abs (minutes ra a e - minutes rb b e)) (events (length (fr_seq (rt ra))))).
  (** Duplicates: different vehicles of routes that serve the same places in the same order, leave the first stop at the
      same time and deviate by less than one minute per stop. *)
  Definition duplicates (a b : nat) : Prop :=
    exists ra rb, a <> b /\ (fr_from (rt ra) <= a < fr_to (rt ra))%nat /\ (fr_from (rt rb) <= b < fr_to (rt rb))%nat /\
      Forall2 (fun x y => same_place L (stop_loc x) (stop_loc y)) (fr_seq (rt ra)) (fr_seq (rt rb)) /\
      delta_value (event_mam ra a 0 false) = delta_value (event_mam rb b 0 false) /\
      deviation ra rb a b < Z.of_nat (length (fr_seq (rt ra))).
  (** The input: routes refer to existing vehicles and have less than 32768 stops. *)
  Definition routes_ok (tt : dtt) : Prop :=
    forall r, (fr_to (rt r) <= length (dt_days tt))%nat /\ Z.of_nat (length (fr_seq (rt r))) < 32768.
  Notation dup_connected := (clos_refl_trans nat (fun a b => duplicates a b \/ duplicates b a)).

  (** One step or many: nothing is gained, nothing is lost. *)
  Definition kept (tt tt' : dtt) : Prop :=
    tt_ok tt' /\ length (dt_days tt') = length (dt_days tt) /\
    (forall t d, is_transport_active tt' t d = true -> is_transport_active tt t d = true) /\
    (forall t d, is_transport_active tt t d = true -> exists w, dup_connected t w /\ is_transport_active tt' w d = true).
  Lemma kept_refl tt : tt_ok tt -> kept tt tt.
  Proof. intros H. split; auto. split; auto. split; auto. intros t d Ht. exists t. split; auto. apply rt_refl. Qed.
  Lemma kept_trans a b c : kept a b -> kept b c -> kept a c.
  Proof.
    intros (A1 & A2 & A3 & A4) (B1 & B2 & B3 & B4). split; auto. split; [congruence|]. split; [auto|].
    intros t d Ht. destruct (A4 t d Ht) as (w & Hw & Ew). destruct (B4 w d Ew) as (v & Hv & Ev).
    exists v. split; auto. eapply rt_trans; eauto.
  Qed.

  Lemma count_range d : -32768 <= delta_count d <= 32767.
  Proof. unfold delta_count, to_i16. pose proof (Z.mod_pos_bound (d_days d * 1440 + d_mam d + 32768) 65536). lia. Qed.
  Lemma get_delta_spec ra rb a b : Z.of_nat (length (fr_seq (rt ra))) < 32768 -> get_delta routes event_mam ra rb a b = deviation ra rb a b.
  Proof.
    intros Hn. unfold get_delta, deviation, events. set (n := length (fr_seq (rt ra))) in *.
    set (f := fun e => Z.abs (minutes ra a e - minutes rb b e)).
    assert (Hf : forall e, 0 <= f e <= 65535).
    { intros e. unfold f, minutes. pose proof (count_range (event_mam ra a (fst e) (snd e))).
      pose proof (count_range (event_mam rb b (fst e) (snd e))). lia. }
    assert (G : forall l acc, 0 <= acc -> acc + 131070 * Z.of_nat (length l) < 4294967296 ->
       fold_left (fun acc i =>
         let acc := if Nat.eqb i 0 then acc else to_u32 (acc + Z.abs (delta_count (event_mam ra a i true) - delta_count (event_mam rb b i true))) in
         if Nat.eqb i (n - 1) then acc else to_u32 (acc + Z.abs (delta_count (event_mam ra a i false) - delta_count (event_mam rb b i false)))) l acc
       = acc + fold_right Z.add 0 (map f (flat_map (fun i => (if Nat.eqb i 0 then [] else [(i, true)]) ++ (if Nat.eqb i (n - 1) then [] else [(i, false)])) l))).
    { induction l as [|i l IH]; intros acc Ha Hb; cbn [fold_left flat_map map fold_right length]; [lia|].
      cbn [length] in Hb. rewrite Nat2Z.inj_succ in Hb.
      rewrite map_app, fold_right_app.
      pose proof (Hf (i, true)) as F1. pose proof (Hf (i, false)) as F2. unfold f, minutes in F1, F2. cbn [fst snd] in F1, F2.
      assert (Es : forall l0 x, fold_right Z.add x l0 = x + fold_right Z.add 0 l0).
      { induction l0 as [|y l0 IH0]; intros x; cbn [fold_right]; [lia|]. rewrite IH0. lia. }
      rewrite Es. unfold to_u32.
      assert (E1 : f (i, true) = Z.abs (delta_count (event_mam ra a i true) - delta_count (event_mam rb b i true))) by reflexivity.
      assert (E2 : f (i, false) = Z.abs (delta_count (event_mam ra a i false) - delta_count (event_mam rb b i false))) by reflexivity.
      rewrite <- E1, <- E2 in *. clear E1 E2.
      destruct (Nat.eqb i 0); destruct (Nat.eqb i (n - 1)); cbn [app map fold_right]; cbv zeta;
        rewrite ?(Z.mod_small (acc + f (i, true))) by lia; rewrite ?Z.mod_small by lia; rewrite IH by lia; lia. }
    rewrite G; [reflexivity|lia|]. rewrite seq_length. lia.
  Qed.

  Lemma walk_kept ra rb : (length (fr_seq (rt ra)) = length (fr_seq (rt rb))) ->
    station_sequence_matches L routes ra rb = true ->
    forall fuel la lb tt m,
    tt_ok tt -> routes_ok tt -> (forall t, In t la -> (fr_from (rt ra) <= t < fr_to (rt ra))%nat) ->
    (forall t, In t lb -> (fr_from (rt rb) <= t < fr_to (rt rb))%nat) ->
    kept tt (fst (walk routes event_mam fuel ra rb la lb tt m)).
  Proof.
    intros Hlen Hm. induction fuel as [|fuel IH]; intros la lb tt m Hok Hr Hla Hlb; cbn [walk]; [now apply kept_refl|].
    destruct la as [|a la]; [now apply kept_refl|]. destruct lb as [|b lb]; [now apply kept_refl|].
    assert (Ha := Hla a (or_introl eq_refl)). assert (Hb := Hlb b (or_introl eq_refl)).
    assert (Hla' : forall t, In t la -> (fr_from (rt ra) <= t < fr_to (rt ra))%nat) by (intros; apply Hla; now right).
    assert (Hlb' : forall t, In t lb -> (fr_from (rt rb) <= t < fr_to (rt rb))%nat) by (intros; apply Hlb; now right).
    destruct (Nat.eqb_spec a b) as [->|Hab]; [apply IH; auto|].
    destruct (delta_eqb (event_mam ra a 0 false) (event_mam rb b 0 false)) eqn:Et.
    2: destruct (delta_lt _ _); apply IH; auto.
    match goal with |- context [if ?c then merge _ _ _ _ else _] => destruct c eqn:Ed end; [|apply IH; auto].
    destruct (merge tt (to_u16 (Z.of_nat (length (fr_seq (rt ra))))) a b) as [tt' mg] eqn:Emg.
    destruct (Hr ra) as [Hra Hsa]. destruct (Hr rb) as [Hrb _].
    destruct (merge_spec tt (to_u16 (Z.of_nat (length (fr_seq (rt ra))))) a b Hok Hab ltac:(lia) ltac:(lia))
      as (M0 & M0' & M1 & M2 & M3 & M4 & _). rewrite Emg in *. cbn [fst] in *.
    assert (Hdup : duplicates a b).
    { exists ra, rb. split; auto. split; auto. split; auto. split.
      - unfold station_sequence_matches in Hm. clear - Hm Hlen. revert Hlen Hm. generalize (fr_seq (rt rb)).
        induction (fr_seq (rt ra)) as [|x l IH]; intros [|y l'] Hlen Hm; cbn [length combine forallb] in *; try discriminate; constructor.
        + apply andb_true_iff in Hm. destruct Hm as [Hm _]. cbn [fst snd] in Hm. now apply matches_place.
        + apply andb_true_iff in Hm. apply IH; tauto || lia.
      - split; [unfold delta_eqb in Et; now apply Z.eqb_eq|]. rewrite <- get_delta_spec by auto. now apply Z.ltb_lt. }
    assert (Hk : kept tt tt').
    { split; auto. split; auto. split; auto. intros t d Ht.
      destruct (Nat.eq_dec t a) as [->|Hta]; [|destruct (Nat.eq_dec t b) as [->|Htb]].
      - specialize (M3 d). rewrite Ht in M3. cbn [orb] in M3. apply orb_true_iff in M3. destruct M3 as [M3|M3].
        + exists a. split; auto. apply rt_refl.
        + exists b. split; auto. apply rt_step. auto.
      - specialize (M3 d). rewrite Ht, orb_true_r in M3. apply orb_true_iff in M3. destruct M3 as [M3|M3].
        + exists a. split; auto. apply rt_step. auto.
        + exists b. split; auto. apply rt_refl.
      - exists t. split; [apply rt_refl|]. rewrite M1; auto. }
    eapply kept_trans; [exact Hk|]. apply IH; auto. intros r. rewrite M0'. apply Hr.
  Qed.

  Lemma find_duplicates_kept tt a b : tt_ok tt -> routes_ok tt ->
    kept tt (fst (find_duplicates L routes location_routes event_mam tt a b)).
  Proof.
    intros Hok Hr. unfold find_duplicates.
    assert (Hro : forall tt', kept tt tt' -> routes_ok tt') by (intros tt' (_ & E & _) r; rewrite E; apply Hr).
    assert (G : forall ra lb st, kept tt (fst st) ->
      kept tt (fst (fold_left (fun st rb =>
        if negb (is_first routes rb b) then st
        else if negb (Nat.eqb (length (fr_seq (rt ra))) (length (fr_seq (rt rb)))) then st
        else if negb (station_sequence_matches L routes ra rb) then st
        else walk routes event_mam (length (transports routes ra) + length (transports routes rb)) ra rb (transports routes ra) (transports routes rb) (fst st) (snd st))
        lb st))).
    { intros ra. induction lb as [|rb lb IH]; intros st Hst; cbn [fold_left]; auto. apply IH.
      destruct (negb (is_first routes rb b)); auto.
      destruct (Nat.eqb_spec (length (fr_seq (rt ra))) (length (fr_seq (rt rb)))) as [El|]; auto. cbn [negb].
      destruct (station_sequence_matches L routes ra rb) eqn:Em; auto. cbn [negb].
      eapply kept_trans; [exact Hst|]. apply walk_kept; auto.
      - apply Hst.
      - intros t Ht. unfold transports in Ht. apply in_seq in Ht. lia.
      - intros t Ht. unfold transports in Ht. apply in_seq in Ht. lia. }
    assert (G2 : forall la st, kept tt (fst st) -> kept tt (fst (fold_left (fun st ra =>
      if negb (is_first routes ra a) then st
      else fold_left (fun st rb =>
        if negb (is_first routes rb b) then st
        else if negb (Nat.eqb (length (fr_seq (rt ra))) (length (fr_seq (rt rb)))) then st
        else if negb (station_sequence_matches L routes ra rb) then st
        else walk routes event_mam (length (transports routes ra) + length (transports routes rb)) ra rb (transports routes ra) (transports routes rb) (fst st) (snd st))
        (location_routes b) st) la st))).
    { induction la as [|ra la IH]; intros st Hst; cbn [fold_left]; auto. apply IH. destruct (negb (is_first routes ra a)); auto. }
    apply G2. cbn [fst]. now apply kept_refl.
  Qed.

  (** C31, for every history of duplicate searches: no vehicle gains a day; a vehicle that loses a day is (connected by
      duplicates to) a vehicle that still runs on that day; vehicles without duplicates are not touched. *)
  Theorem C31_no_service_lost : forall pairs tt, tt_ok tt -> routes_ok tt ->
    let tt' := remove_duplicates L routes location_routes event_mam pairs tt in
    (forall t d, is_transport_active tt' t d = true -> is_transport_active tt t d = true) /\
    (forall t d, is_transport_active tt t d = true -> exists w, dup_connected t w /\ is_transport_active tt' w d = true) /\
    (forall t d, (forall w, ~ duplicates t w /\ ~ duplicates w t) -> is_transport_active tt' t d = is_transport_active tt t d).
  Proof.
    intros pairs tt Hok Hr tt'.
    assert (K : kept tt tt').
    { unfold tt', remove_duplicates. assert (G : forall st, kept tt st -> kept tt (fold_left (fun tt p => fst (find_duplicates L routes location_routes event_mam tt (fst p) (snd p))) pairs st)).
      { induction pairs as [|p ps IH]; intros st Hst; cbn [fold_left]; auto. apply IH. eapply kept_trans; [exact Hst|].
        apply find_duplicates_kept; [apply Hst|]. destruct Hst as (_ & E & _). intros r. rewrite E. apply Hr. }
      apply G. now apply kept_refl. }
    destruct K as (_ & _ & K1 & K2). split; auto. split; auto.
    intros t d Hno. destruct (is_transport_active tt t d) eqn:E.
    - destruct (K2 t d E) as (w & Hw & Ew). apply clos_rt_rt1n in Hw. destruct Hw as [|w v Hs _]; auto.
      destruct (Hno w) as [H1 H2]. destruct Hs; tauto.
    - destruct (is_transport_active tt' t d) eqn:E'; auto. apply K1 in E'. congruence.
  Qed.
End History.

(** ** Trips *)
(** A trip runs on a day if one of its vehicles does (timetable.h: [trip_transport_ranges_]). *)
Definition trip_runs (tt : dtt) (trip : nat) (d : Z) : Prop :=
  exists e, In e (nth trip (dt_ranges tt) []) /\ is_transport_active tt (fst e) d = true.
(** The sections of a vehicle name all trips that refer to it. *)
Definition sections_complete (tt : dtt) (x : nat) : Prop :=
  forall trip, (exists e, In e (nth trip (dt_ranges tt) []) /\ fst e = x) -> In trip (section_trips tt x).

Lemma redirect_idem x y l : redirect x y (redirect x y l) = redirect x y l.
Proof.
  unfold redirect. rewrite map_map. apply map_ext. intros [t r]. cbn [fst snd]. destruct (Nat.eqb_spec t x) as [->|Hn]; cbn [fst].
  - destruct (Nat.eqb y x); reflexivity.
  - destruct (Nat.eqb_spec t x); [tauto|reflexivity].
Qed.
Lemma redirect_fold x y trips rs0 : forall rs,
  (forall T, nth T rs [] = nth T rs0 [] \/ nth T rs [] = redirect x y (nth T rs0 [])) ->
  let rs' := fold_left (fun rs trp => set_nth rs trp (redirect x y (nth trp rs []))) trips rs in
  (forall T, nth T rs' [] = nth T rs0 [] \/ nth T rs' [] = redirect x y (nth T rs0 [])) /\
  (forall T, In T trips \/ nth T rs [] = redirect x y (nth T rs0 []) -> nth T rs' [] = redirect x y (nth T rs0 [])).
Proof.
  induction trips as [|p trips IH]; intros rs Hrs rs'; cbn [fold_left] in rs'.
  - split; auto. intros T [[]|H]; auto.
  - assert (Hset : forall T, nth T (set_nth rs p (redirect x y (nth p rs []))) [] =
      if Nat.eqb p T then redirect x y (nth T rs []) else nth T rs []).
    { intros T. rewrite nth_set_nth. destruct (Nat.eqb_spec p T) as [->|Hn]; cbn [andb]; auto.
      destruct (Nat.ltb_spec T (length rs)); auto. rewrite nth_overflow by auto. reflexivity. }
    destruct (IH (set_nth rs p (redirect x y (nth p rs [])))) as [I1 I2].
    { intros T. rewrite Hset. destruct (Nat.eqb_spec p T) as [->|Hn]; auto. destruct (Hrs T) as [->| ->]; auto.
      right. apply redirect_idem. }
    split; [exact I1|]. intros T HT. apply I2.
    rewrite Hset. destruct (Nat.eqb_spec p T) as [->|Hn].
    + right. destruct (Hrs T) as [->| ->]; auto. apply redirect_idem.
    + destruct HT as [[HT|HT]|HT]; [tauto|auto|auto].
Qed.

Lemma nullify_trips tt x y : tt_ok tt -> x <> y -> (x < length (dt_days tt))%nat -> sections_complete tt x ->
  (forall d, is_transport_active tt x d = true -> is_transport_active tt y d = true) ->
  forall trip d, trip_runs tt trip d -> trip_runs (merge_and_nullify tt x y) trip d.
Proof.
  intros Hok Hxy Hx Hs Hsup trip d (e & He & Ha). destruct (nullify_spec tt x y Hok Hx) as (_ & _ & N).
  destruct (redirect_fold x y (section_trips tt x) (dt_ranges tt) (dt_ranges tt) (fun T => or_introl eq_refl)) as [R1 R2].
  unfold trip_runs. cbn [merge_and_nullify dt_ranges].
  destruct (Nat.eq_dec (fst e) x) as [E|E].
  - exists (y, snd e). rewrite R2 by (left; apply Hs; exists e; auto). split.
    + unfold redirect. apply in_map_iff. exists e. split; auto. rewrite E, Nat.eqb_refl. reflexivity.
    + cbn [fst]. rewrite N. destruct (Nat.eqb_spec y x); [congruence|]. apply Hsup. rewrite <- E. auto.
  - exists e. split.
    + destruct (R1 trip) as [->| ->]; auto. unfold redirect. apply in_map_iff. exists e. split; auto.
      destruct (Nat.eqb_spec (fst e) x); [tauto|reflexivity].
    + rewrite N. destruct (Nat.eqb_spec (fst e) x); [tauto|auto].
Qed.

(** C31: if the days of one vehicle include the days of the other, every trip keeps all its days. *)
Theorem C31_trips_keep_days_nested : forall tt size a b, tt_ok tt -> a <> b ->
  (a < length (dt_days tt))%nat -> (b < length (dt_days tt))%nat -> sections_complete tt a -> sections_complete tt b ->
  (forall d, is_transport_active tt a d = true -> is_transport_active tt b d = true) \/
  (forall d, is_transport_active tt b d = true -> is_transport_active tt a d = true) ->
  forall trip d, trip_runs tt trip d -> trip_runs (fst (merge tt size a b)) trip d.
Proof.
  intros tt size a b Hok Hab Ha Hb Sa Sb Hn trip d Hr. unfold merge.
  destruct (bfNone _); [exact Hr|].
  assert (Hsup : forall u v, is_superset (dt_bits tt v) (dt_bits tt u) = true ->
    forall d, is_transport_active tt u d = true -> is_transport_active tt v d = true).
  { intros u v E d0 H0. rewrite is_superset_spec in E. apply E; auto. eapply active_range; eauto. }
  destruct (is_superset (dt_bits tt b) (dt_bits tt a)) eqn:E1; [|destruct (is_superset (dt_bits tt a) (dt_bits tt b)) eqn:E2]; cbn [fst].
  - apply nullify_trips; auto. exact (Hsup _ _ E1).
  - apply nullify_trips; auto. exact (Hsup _ _ E2).
  - exfalso. destruct Hn as [Hn|Hn].
    + assert (is_superset (dt_bits tt b) (dt_bits tt a) = true); [|congruence]. apply is_superset_spec. intros d0 _ H0. now apply Hn.
    + assert (is_superset (dt_bits tt a) (dt_bits tt b) = true); [|congruence]. apply is_superset_spec. intros d0 _ H0. now apply Hn.
Qed.

(** *** Instances: three stops A, A', A'' (0, 1, 2) declared equivalent and a common last stop 3; routes with one vehicle each. *)
Definition ex_L : locations := mk_locs (fun _ => None) (fun _ => []) (fun l => if Nat.ltb l 3 then [0;1;2]%nat else []) (fun _ => false).
Definition ex_stop (l : Z) : stop := mk_stop l true true true true.
Definition ex_route (l : Z) (i : nat) : froute := mk_froute [ex_stop l; ex_stop 3] i (S i).
Definition ex_routes : list froute := [ex_route 0 0; ex_route 1 1; ex_route 2 2].
Definition ex_loc_routes (l : nat) : list nat := if Nat.ltb l 3 then [l] else [0;1;2]%nat.
Definition ex_ev (r t s : nat) (arr : bool) : delta := if arr then mk_delta 0 630 else mk_delta 0 600.
Definition ex_days (l : list Z) : bitfield := fun d => existsb (Z.eqb d) l.
(** vehicles with bit fields 1, 2, 3; trip [i] belongs to vehicle [i]. *)
Definition ex_tt (d0 d1 d2 : list Z) : dtt :=
  mk_dtt [bf_empty; ex_days d0; ex_days d1; ex_days d2] [1;2;3]%nat [[0];[1];[2]]%nat [[0];[1];[2]]%nat
    [[(0%nat, (0, 2))]; [(1%nat, (0, 2))]; [(2%nat, (0, 2))]].
Definition ex_run (pairs : list (nat * nat)) (tt : dtt) : dtt := remove_duplicates ex_L ex_routes ex_loc_routes ex_ev pairs tt.

(** Non-vacuity: the search finds the duplicates. *)
Example C31_ex_duplicates : duplicates ex_L ex_routes ex_ev 0 1 /\ routes_ok ex_routes (ex_tt [1] [1;2] [2]) /\ tt_ok (ex_tt [1] [1;2] [2]).
Proof.
  split; [|split].
  - exists 0%nat, 1%nat. split; [discriminate|]. split; [cbn; lia|]. split; [cbn; lia|]. split; [|split; [reflexivity|vm_compute; reflexivity]].
    cbn. constructor; [|constructor; [now left|constructor]]. right. right. exists 1%nat. split; [cbn; auto|constructor].
  - intros r. destruct r as [|[|[|[|r]]]]; cbn; (split; [lia|lia]).
  - assert (Hd : forall l, Forall (fun x => 0 <= x < 512) l -> forall d, ex_days l d = true -> 0 <= d < 512).
    { intros l Hl d H. apply existsb_exists in H. destruct H as (x & Hx & E). apply Z.eqb_eq in E. subst. rewrite Forall_forall in Hl. auto. }
    constructor; cbn [ex_tt dt_bitfields dt_days].
    + intros bf d [<-|[<-|[<-|[<-|[]]]]] H; [discriminate|apply (Hd _) in H; auto; repeat constructor; lia..].
    + reflexivity.
    + cbn. intros i [<-|[<-|[<-|[]]]]; lia.
Qed.
Example C31_ex_run : let tt' := ex_run [(0, 1); (1, 2)]%nat (ex_tt [1] [1;2] [2]) in
  is_transport_active tt' 0 1 = false /\ is_transport_active tt' 1 1 = true /\ is_transport_active tt' 1 2 = true /\ is_transport_active tt' 2 2 = false.
Proof. vm_compute. auto. Qed.

(** REFUTED: "every trip keeps its service days".  Partially overlapping days: the trip of the first vehicle loses the
    common day (its vehicle no longer runs, and it is not linked to the other one), and the trip of the second vehicle gains
    a day on which it is not scheduled (merge_duplicates.cc:69-86 links the trips of [b] to [a] instead of the converse). *)
Theorem C31_partial_overlap_loses_trip_refuted : exists tt, tt_ok tt /\ sections_complete tt 0 /\ sections_complete tt 1 /\
  let tt' := fst (merge tt 2 0 1) in
  (trip_runs tt 0 1 /\ ~ trip_runs tt' 0 1) /\ (~ trip_runs tt 1 0 /\ trip_runs tt' 1 0).
Proof.
  exists (ex_tt [0;1] [1;2] [2]). split; [|split; [|split]].
  - assert (Hd : forall l, Forall (fun x => 0 <= x < 512) l -> forall d, ex_days l d = true -> 0 <= d < 512).
    { intros l Hl d H. apply existsb_exists in H. destruct H as (x & Hx & E). apply Z.eqb_eq in E. subst. rewrite Forall_forall in Hl. auto. }
    constructor; cbn [ex_tt dt_bitfields dt_days].
    + intros bf d [<-|[<-|[<-|[<-|[]]]]] H; [discriminate|apply (Hd _) in H; auto; repeat constructor; lia..].
    + reflexivity.
    + cbn. intros i [<-|[<-|[<-|[]]]]; lia.
  - intros [|[|[|trip]]] (e & He & E); cbn in *; [auto|destruct He as [<-|[]]; discriminate|destruct He as [<-|[]]; discriminate|destruct trip; destruct He].
  - intros [|[|[|trip]]] (e & He & E); cbn in *; [destruct He as [<-|[]]; discriminate|auto|destruct He as [<-|[]]; discriminate|destruct trip; destruct He].
  - intros tt'. split; split.
    + exists (0%nat, (0, 2)). split; [now left|reflexivity].
    + intros (e & He & Ha). vm_compute in He. destruct He as [<-|[]]. vm_compute in Ha. discriminate.
    + intros (e & He & Ha). vm_compute in He. destruct He as [<-|[]]. vm_compute in Ha. discriminate.
    + exists (0%nat, (0, 2)). split; [vm_compute; auto|vm_compute; reflexivity].
Qed.
(** REFUTED: the same for three identical vehicles on the same day: after vehicle 0 was merged into 1 and 1 into 2, the trip
    of vehicle 0 still refers to vehicle 1, which does not run any more (the section list of 1 does not name this trip). *)
Theorem C31_chain_loses_trip_refuted : exists pairs tt, trip_runs tt 0 1 /\ ~ trip_runs (ex_run pairs tt) 0 1.
Proof.
  exists [(0, 1); (1, 2)]%nat, (ex_tt [1] [1] [1]). split.
  - exists (0%nat, (0, 2)). split; [now left|reflexivity].
  - intros (e & He & Ha). vm_compute in He. destruct He as [<-|[]]. vm_compute in Ha. discriminate.
Qed.
(** REFUTED: "only identical vehicles are merged".  Boarding permissions are not compared: the vehicle that can be boarded is
    removed in favour of one that cannot. *)
Theorem C31_permissions_ignored_refuted : exists routes tt, let tt' := remove_duplicates ex_L routes ex_loc_routes ex_ev [(0, 1)]%nat tt in
  is_transport_active tt 0 1 = true /\ is_transport_active tt' 0 1 = false /\
  (exists s, nth_error (fr_seq (nth 0 routes (mk_froute [] 0 0))) 0 = Some s /\ s_in s = true) /\
  (exists s, nth_error (fr_seq (nth 1 routes (mk_froute [] 0 0))) 0 = Some s /\ s_in s = false) /\
  is_transport_active tt' 1 1 = true.
Proof.
  exists [ex_route 0 0; mk_froute [mk_stop 1 false false false false; ex_stop 3] 1 2; ex_route 2 2], (ex_tt [1] [1] []).
  split; [reflexivity|]. split; [vm_compute; reflexivity|]. split; [eexists; split; reflexivity|]. split; [eexists; split; reflexivity|].
  vm_compute. reflexivity.
Qed.

(** * C32 *)
Section RouteDays.
  Variable routes : list froute.
  Variable event_mam : nat -> nat -> nat -> bool -> delta.
  Notation rt := (route routes).
  (** Event [e] of vehicle [t] is an event of the route [r]. *)
  Definition is_event (r : nat) (s : nat) (arr : bool) : Prop :=
    (s < length (fr_seq (rt r)))%nat /\ (if arr then s <> 0%nat else S s <> length (fr_seq (rt r))).

  Lemma max_day_spec r t : let n := length (fr_seq (rt r)) in
    0 <= max_day_offset routes event_mam r t /\
    (forall s arr, is_event r s arr -> d_days (event_mam r t s arr) <= max_day_offset routes event_mam r t) /\
    (max_day_offset routes event_mam r t = 0 \/
     exists s arr, is_event r s arr /\ max_day_offset routes event_mam r t = d_days (event_mam r t s arr)).
  Proof.
    intros n. unfold max_day_offset. fold n.
    set (f := fun acc s => _).
    assert (G : forall l acc, 0 <= acc -> (forall s, In s l -> (s < n)%nat) ->
      let res := fold_left f l acc in
      acc <= res /\ (forall s arr, In s l -> is_event r s arr -> d_days (event_mam r t s arr) <= res) /\
      (res = acc \/ exists s arr, is_event r s arr /\ res = d_days (event_mam r t s arr))).
    { induction l as [|s l IH]; intros acc Ha Hl; cbn [fold_left].
      - split; [lia|]. split; [intros ? ? []|auto].
      - assert (Hs := Hl s (or_introl eq_refl)).
        assert (Hf : acc <= f acc s /\ (forall arr, is_event r s arr -> d_days (event_mam r t s arr) <= f acc s) /\
          (f acc s = acc \/ exists arr, is_event r s arr /\ f acc s = d_days (event_mam r t s arr))).
        { unfold f, is_event. fold n. set (x := d_days (event_mam r t s true)). set (y := d_days (event_mam r t s false)).
          destruct (Nat.eqb_spec s 0) as [E0|E0]; destruct (Nat.eqb_spec (s + 1) n) as [E1|E1]; cbv zeta.
          - split; [lia|]. split; [intros [|] [_ H]; [tauto|lia]|]. left. lia.
          - split; [lia|]. split; [intros [|] [_ H]; [tauto|fold y; lia]|].
            destruct (Z.max_spec acc y) as [[_ ->]|[_ ->]]; auto. right. exists false. split; [split; lia|reflexivity].
          - split; [lia|]. split; [intros [|] [_ H]; [fold x; lia|lia]|].
            destruct (Z.max_spec acc x) as [[_ ->]|[_ ->]]; auto. right. exists true. split; [split; lia|reflexivity].
          - split; [lia|]. split; [intros [|] [_ H]; fold x y; lia|].
            destruct (Z.max_spec (Z.max acc x) y) as [[_ ->]|[_ ->]]; [right; exists false; split; [split; lia|reflexivity]|].
            destruct (Z.max_spec acc x) as [[_ ->]|[_ ->]]; auto. right. exists true. split; [split; lia|reflexivity]. }
        destruct Hf as (F1 & F2 & F3).
        destruct (IH (f acc s) ltac:(lia) (fun s0 H => Hl s0 (or_intror H))) as (I1 & I2 & I3).
        split; [lia|]. split.
        + intros s0 arr [->|Hin] He; [|auto]. specialize (F2 arr He). lia.
        + destruct I3 as [I3|I3]; [|auto]. rewrite I3. destruct F3 as [F3|(arr & H1 & H2)]; [now left|right; eauto]. }
    assert (Hl : forall s, In s (seq 0 n) -> (s < n)%nat) by (intros s Hs; apply in_seq in Hs; lia).
    destruct (G (seq 0 n) 0 ltac:(lia) Hl) as (G1 & G2 & G3). split; [exact G1|]. split; [|exact G3].
    intros s arr He. apply G2; auto. apply in_seq. destruct He as [He _]. fold n in He. lia.
  Qed.

  Lemma add_vehicle_spec tt r c t D : 0 <= D ->
    add_vehicle_days routes event_mam tt r c t D = true <->
    c D = true \/ (D < 512 /\ exists d, 0 <= d <= max_day_offset routes event_mam r t /\ 0 <= D - d /\ dt_bits tt t (D - d) = true).
  Proof.
    intros HD. unfold add_vehicle_days. destruct (max_day_spec r t) as [Hm _].
    set (m := max_day_offset routes event_mam r t) in *.
    assert (G : forall l c, fold_left (fun c d => bfOr c (bfShl (dt_bits tt t) (Z.of_nat d))) l c D = true <->
      c D = true \/ (D < 512 /\ exists d, In d l /\ 0 <= D - Z.of_nat d /\ dt_bits tt t (D - Z.of_nat d) = true)).
    { induction l as [|x l IH]; intros c0; cbn [fold_left].
      - split; [auto|]. intros [H|(_ & d & [] & _)]. exact H.
      - rewrite IH. unfold bfOr, bfShl. rewrite orb_true_iff, !andb_true_iff, Z.leb_le, Z.ltb_lt. split.
        + intros [[H|[[H1 H2] H3]]|(H1 & d & Hd & H2)]; auto; right; split; auto; [exists x|exists d]; simpl; auto.
        + intros [H|(H1 & d & [->|Hd] & H2 & H3)]; auto. right. split; auto. eauto. }
    rewrite G. split; (intros [H|(H1 & d & Hd & H2 & H3)]; [auto|right; split; auto]).
    - exists (Z.of_nat d). apply in_seq in Hd. split; [lia|]. auto.
    - exists (Z.to_nat d). rewrite Z2Nat.id by lia. split; auto. apply in_seq. lia.
  Qed.
  Lemma route_days_spec tt r D : 0 <= D ->
    route_days routes event_mam tt r D = true <->
    exists t, In t (transports routes r) /\ D < 512 /\
      exists d, 0 <= d <= max_day_offset routes event_mam r t /\ 0 <= D - d /\ dt_bits tt t (D - d) = true.
  Proof.
    intros HD. unfold route_days.
    assert (G : forall l c, fold_left (add_vehicle_days routes event_mam tt r) l c D = true <->
      c D = true \/ exists t, In t l /\ D < 512 /\ exists d, 0 <= d <= max_day_offset routes event_mam r t /\ 0 <= D - d /\ dt_bits tt t (D - d) = true).
    { induction l as [|x l IH]; intros c; cbn [fold_left].
      - split; [auto|]. intros [H|(t & [] & _)]. exact H.
      - rewrite IH, add_vehicle_spec by auto. split.
        + intros [[H|H]|(t & Ht & H)]; auto; right; [exists x|exists t]; simpl; auto.
        + intros [H|(t & [->|Ht] & H)]; auto. right. eauto. }
    rewrite G. split; [intros [H|H]; [discriminate|exact H]|auto].
  Qed.
  Lemma rebuild_nth tt r : (r < length routes)%nat ->
    let st := rebuild_route_traffic_days routes event_mam tt in
    nth (nth r (snd st) 0%nat) (fst st) bf_empty = route_days routes event_mam tt r /\
    (forall i, (i < length (dt_bitfields tt))%nat -> nth i (fst st) bf_empty = nth i (dt_bitfields tt) bf_empty).
  Proof.
    intros Hr. unfold rebuild_route_traffic_days. set (n := length routes) in *. clearbody n. cbv zeta.
    assert (G : forall n, let st := fold_left (fun st r => (fst st ++ [route_days routes event_mam tt r], snd st ++ [length (fst st)])) (seq 0 n) (dt_bitfields tt, @nil nat) in
       fst st = dt_bitfields tt ++ map (route_days routes event_mam tt) (seq 0 n) /\
       snd st = map (fun r => (length (dt_bitfields tt) + r)%nat) (seq 0 n)).
    { induction n0 as [|n0 IH]; [cbn; rewrite app_nil_r; auto|].
      rewrite seq_S, fold_left_app. cbn [fold_left]. cbv zeta in IH. destruct IH as [I1 I2]. cbn [fst snd]. rewrite I1, I2.
      rewrite !map_app, app_length, map_length, seq_length. cbn [map]. split; [now rewrite app_assoc|]. reflexivity. }
    specialize (G n). cbv zeta in G. destruct G as [G1 G2]. rewrite G1, G2. split.
    - assert (E : nth r (map (fun r => (length (dt_bitfields tt) + r)%nat) (seq 0 n)) 0%nat = (length (dt_bitfields tt) + r)%nat).
      { rewrite (nth_indep _ 0%nat (length (dt_bitfields tt) + 0)%nat) by (rewrite map_length, seq_length; auto).
        rewrite (map_nth (fun r => (length (dt_bitfields tt) + r)%nat)). rewrite seq_nth by auto. reflexivity. }
      rewrite E. rewrite app_nth2_plus.
      rewrite (nth_indep _ bf_empty (route_days routes event_mam tt 0%nat)) by (rewrite map_length, seq_length; auto).
      rewrite map_nth, seq_nth by auto. reflexivity.
    - intros i Hi. now rewrite app_nth1 by auto.
  Qed.

  (** C32: on the calendar day of every event of every running vehicle the route is active. *)
  Theorem C32_route_days_cover_events : forall tt r t day s arr, tt_ok tt -> (r < length routes)%nat ->
    (fr_from (rt r) <= t < fr_to (rt r))%nat -> is_transport_active tt t day = true ->
    is_event r s arr -> 0 <= d_days (event_mam r t s arr) -> day + d_days (event_mam r t s arr) < 512 ->
    is_route_active (rebuild_route_traffic_days routes event_mam tt) r (day + d_days (event_mam r t s arr)) = true.
  Proof.
    intros tt r t day s arr Hok Hr Ht Ha He H0 H1. assert (Hd := active_range tt t day Hok Ha).
    unfold is_route_active, bf_test. destruct (rebuild_nth tt r Hr) as [E _]. rewrite E. apply route_days_spec; [lia|].
    exists t. split; [unfold transports; apply in_seq; lia|]. split; auto.
    destruct (max_day_spec r t) as (_ & M & _). specialize (M s arr He).
    exists (d_days (event_mam r t s arr)). split; [lia|]. split; [lia|].
    replace (day + d_days (event_mam r t s arr) - d_days (event_mam r t s arr)) with day by lia. exact Ha.
  Qed.
  (** Conversely a route is only active on days between the start day and the last event of a running vehicle, and vehicles
      keep their own days. *)
  Theorem C32_route_days_tight : forall tt r D, tt_ok tt -> (r < length routes)%nat -> 0 <= D ->
    is_route_active (rebuild_route_traffic_days routes event_mam tt) r D = true ->
    exists t day, (fr_from (rt r) <= t < fr_to (rt r))%nat /\ is_transport_active tt t day = true /\ day <= D < 512 /\
      (D = day \/ exists s arr, is_event r s arr /\ D <= day + d_days (event_mam r t s arr)).
  Proof.
    intros tt r D Hok Hr HD Ha. unfold is_route_active, bf_test in Ha. destruct (rebuild_nth tt r Hr) as [E _]. rewrite E in Ha.
    apply route_days_spec in Ha; auto. destruct Ha as (t & Ht & HD2 & d & Hd & H0 & Hb).
    unfold transports in Ht. apply in_seq in Ht. exists t, (D - d). split; [lia|]. split; [exact Hb|]. split; [lia|].
    destruct (max_day_spec r t) as (_ & _ & [M|(s & arr & He & M)]).
    - left. lia.
    - right. exists s, arr. split; auto. lia.
  Qed.
  Theorem C32_vehicle_days_unchanged : forall tt t, tt_ok tt -> (t < length (dt_days tt))%nat -> routes <> [] ->
    nth (nth t (dt_days tt) 0%nat) (fst (rebuild_route_traffic_days routes event_mam tt)) bf_empty = dt_bits tt t.
  Proof.
    intros tt t Hok Ht Hn. destruct (rebuild_nth tt 0) as [_ R]; [destruct routes; [congruence|cbn; lia]|].
    apply R. apply (to_idx tt Hok), nth_In, Ht.
  Qed.
End RouteDays.

(** Non-vacuity: a night bus (arrival on the next day) on day 1: the route is active on days 1 and 2. *)
Definition night_ev (r t s : nat) (arr : bool) : delta := if arr then mk_delta 1 10 else mk_delta 0 1430.
Example C32_ex : is_event ex_routes 0 1 true /\
  is_route_active (rebuild_route_traffic_days ex_routes night_ev (ex_tt [1] [5] [])) 0 2 = true /\
  is_route_active (rebuild_route_traffic_days ex_routes night_ev (ex_tt [1] [5] [])) 0 1 = true /\
  is_route_active (rebuild_route_traffic_days ex_routes night_ev (ex_tt [1] [5] [])) 0 3 = false /\
  is_route_active (rebuild_route_traffic_days ex_routes night_ev (ex_tt [1] [5] [])) 1 2 = false.
Proof. split; [split; cbn; lia|]. vm_compute. auto. Qed.

Print Assumptions C31_merge_pair.
Print Assumptions C31_no_service_lost.
Print Assumptions C31_trips_keep_days_nested.
Print Assumptions C31_partial_overlap_loses_trip_refuted.
Print Assumptions C31_chain_loses_trip_refuted.
Print Assumptions C31_permissions_ignored_refuted.
Print Assumptions C32_route_days_cover_events.
Print Assumptions C32_route_days_tight.
Print Assumptions C32_vehicle_days_unchanged.
