(** Property theorems C53: the one-to-all search (src/routing/one_to_all.cc).  The specification of rides, transfers and walks is
    [Raptor_Spec]; times are unix minutes. *)
From Coq Require Import List ZArith Bool Arith Lia.
From Verif Require Import Base Time_Model Raptor_Model Raptor_Spec Raptor_Base Raptor_Sound Raptor_Genuine Raptor_Opt Raptor_Final Raptor_Bound
  Search_Model Ota_Model Ota_Proofs.
From Verif Require Query_Model.
Import ListNotations.
Local Open Scope Z_scope.

Section Spec.
  Variable fwd : bool.
  Variable tt : timetable.
  Variable L : Query_Model.locations.
  Variable first_day : Z.
  Variable q : ota_query.
  Notation P := (ota_params fwd tt first_day q).

  (** Midnight of the day next to the start of the query: times of the search are relative to it. *)
  Definition base_minute : Z := ota_base first_day q * 1440.
  (** The traveller is at location [l] at time [u] without having taken any vehicle: the start time of the query, [o_duration] minutes
      later (backward search: earlier), at a location that matches the start. *)
  Definition at_start (l : nat) (u : Z) : Prop :=
    exists s, In s (oq_starts q) /\ In l (Query_Model.metas L (oq_mode q) (Query_Model.o_target s)) /\
              u = if fwd then oq_start_time q + Query_Model.o_duration s else oq_start_time q - Query_Model.o_duration s.
  (** With [k] rides, transfers and footpaths in between and the filters of the query, the traveller can be ready to board at [l] at
      time [u] (the transfer time at [l] has passed, or a walk to [l]); backward search: leave the vehicle at [l] at [u] and still
      reach the target at the start time of the query. *)
  Definition can_be_at (k l : nat) (u : Z) : Prop :=
    ready P (fun l t => at_start l (t + base_minute)) (transfer_time P) k l (u - base_minute).
  (** Travel time of being somewhere at time [u]. *)
  Definition travel_time (u : Z) : Z := if fwd then u - oq_start_time q else oq_start_time q - u.

  (** A well-formed timetable and query; no transfer or walk takes longer than [B]; all times fit into 16 bits. *)
  Record ota_ok (B : Z) : Prop := mk_ota_ok {
    oo_vehicles : all_vehicles_wf P; oo_durations : durations_ok P; oo_locations : locations_ok P;
    oo_columns : columns_sorted P; oo_index : index_ok P; oo_fifo : fifo P;
    oo_base : 0 <= make_base first_day (oq_start_time q) < 65536;
    oo_offsets : forall s, In s (oq_starts q) -> 0 <= Query_Model.o_duration s <= 32000;
    oo_start_locs : forall s l, In s (oq_starts q) -> In l (Query_Model.metas L (oq_mode q) (Query_Model.o_target s)) ->
                                (l < tt_n_locations tt)%nat;
    oo_travel : 0 <= oq_max_travel q /\ 0 <= B /\ oq_max_travel q + B <= 32000;
    oo_transfers : forall l, transfer_time P l <= B;
    oo_walks : forall l l' d, walk P l l' d -> d <= B }.
End Spec.

Section Proofs.
  Variable fwd : bool.
  Variable tt : timetable.
  Variable L : Query_Model.locations.
  Variable first_day : Z.
  Variable q : ota_query.
  Notation P := (ota_params fwd tt first_day q).
  Variable B : Z.
  Hypothesis Hok : ota_ok fwd tt L first_day q B.
  Notation base := (ota_base first_day q).
  Notation start := (oq_start_time q).
  Notation g := (ota_group fwd L first_day q).
  Notation s := (one_to_all fwd tt L first_day q).
  Notation o := (o P).
  Notation St := (fun l t => In (l, t) (g_starts g)).

  Lemma Hnodest l : p_is_dest P l = false. Proof. reflexivity. Qed.
  Lemma Hnoend : p_dist_to_end P = None. Proof. reflexivity. Qed.
  Lemma Hlb l : p_lb P l = 0. Proof. reflexivity. Qed.

  Lemma base_near : -720 <= start - base * 1440 <= 720.
  Proof.
    unfold ota_base, make_base. replace (first_day + (round_days start / 1440 - first_day)) with (round_days start / 1440) by lia.
    unfold round_days. pose proof (Z.div_mod start 1440 ltac:(lia)). pose proof (Z.mod_pos_bound start 1440 ltac:(lia)).
    set (d := start / 1440) in *. set (r := start mod 1440) in *.
    destruct (Z.ltb_spec r 720); [rewrite Z.div_mul by lia; lia|].
    destruct (Z.ltb_spec 720 r); [rewrite Z.div_mul by lia; lia|].
    destruct (Z.even d); rewrite Z.div_mul by lia; lia.
  Qed.
  Lemma o_shift d : o (shift fwd start d - base * 1440) = o (start - base * 1440) + d.
  Proof. unfold Raptor_Base.o, shift. cbn [ota_params p_fwd]. destruct fwd; lia. Qed.
  Lemma rel_shift d : 0 <= d <= 32000 -> unix_to_delta base (shift fwd start d) = shift fwd start d - base * 1440.
  Proof.
    intros Hd. pose proof base_near. unfold unix_to_delta, shift, clamp16, i16_min, i16_max. destruct fwd; lia.
  Qed.
  Lemma g_start_eq : g_start g = start - base * 1440.
  Proof. cbn [ota_group g_start]. pose proof base_near. unfold unix_to_delta, clamp16, i16_min, i16_max. lia. Qed.
  Lemma g_worst_o : o (g_worst g) = o (g_start g) + oq_max_travel q.
  Proof.
    rewrite g_start_eq, <- o_shift. cbn [ota_group g_worst]. rewrite rel_shift; auto. destruct (oo_travel _ _ _ _ _ _ Hok). lia.
  Qed.
  Lemma OL_start : OL P < o (g_start g) /\ o (g_start g) + 32000 < OI P.
  Proof. rewrite g_start_eq. pose proof base_near. unfold OL, OI, Raptor_Base.o. cbn [ota_params p_fwd]. destruct fwd; lia. Qed.

  Lemma starts_eq l t : St l t <-> at_start fwd L q l (t + base_minute first_day q).
  Proof.
    cbn [ota_group g_starts]. rewrite in_flat_map. unfold at_start, base_minute. split.
    - intros (x & Hx & Hin). apply in_map_iff in Hin as (l' & E & Hl). injection E as -> <-.
      exists x. split; auto. split; auto. rewrite rel_shift by (apply (oo_offsets _ _ _ _ _ _ Hok); auto). unfold shift. destruct fwd; lia.
    - intros (x & Hx & Hl & E). exists x. split; auto. apply in_map_iff. exists l. split; auto. f_equal.
      rewrite rel_shift by (apply (oo_offsets _ _ _ _ _ _ Hok); auto). unfold shift. destruct fwd; lia.
  Qed.
  Lemma ready_eq k l t : ready P St (transfer_time P) k l t <-> can_be_at fwd tt L first_day q k l (t + base_minute first_day q).
  Proof.
    unfold can_be_at. replace (t + base_minute first_day q - base_minute first_day q) with t by lia.
    split; apply reach_mono; intros l' t' H; apply starts_eq; exact H.
  Qed.
  Lemma g_ok l t : In (l, t) (g_starts g) ->
    OL P < o t /\ o t <= OI P /\ o (g_start g) <= o t /\ (l < tt_n_locations (p_tt P))%nat.
  Proof.
    intros H. apply starts_eq in H as (x & Hx & Hl & E). pose proof OL_start. pose proof (oo_offsets _ _ _ _ _ _ Hok x Hx).
    assert (Eo : o t = o (g_start g) + Query_Model.o_duration x).
    { rewrite g_start_eq. unfold Raptor_Base.o, base_minute in *. cbn [ota_params p_fwd]. destruct fwd; lia. }
    do 3 (split; [lia|]). apply (oo_start_locs _ _ _ _ _ _ Hok x); auto.
  Qed.
  Lemma g_ok' l t : In (l, t) (g_starts g) -> OL P < o t /\ o t <= OI P.
  Proof. intros H. destruct (g_ok l t H) as (A & C & _). auto. Qed.

  (** A valid label: in search direction, and not much later than the bound. *)
  Lemma label_sound k l : s_rt s k l <> kInvalid P ->
    exists i, (i <= k)%nat /\ ((1 <= k)%nat -> (1 <= i)%nat) /\ ready P St (transfer_time P) i l (s_rt s k l).
  Proof.
    apply (ota_sound P Hnodest Hnoend (oo_vehicles _ _ _ _ _ _ Hok) (oo_durations _ _ _ _ _ _ Hok) (oo_locations _ _ _ _ _ _ Hok)
             (oq_max_transfers q) g g_ok').
  Qed.
  Lemma ready_lower k l t : ready P St (transfer_time P) k l t -> o (g_start g) <= o t.
  Proof.
    assert (Hdur := oo_durations _ _ _ _ _ _ Hok).
    assert (HA := reach_lower_pos P St (transfer_time P) (o (g_start g)) 0 (fun l t H => proj1 (proj2 (proj2 (g_ok l t H))))
                    (tr_nonneg P Hdur) Hdur ltac:(lia) (rides_take_zero P (oo_vehicles _ _ _ _ _ _ Hok))).
    intros H. inversion H as [l0 t0 Hs|k0 l0 t0 Ha|k0 l0 t0 l1 d Ha Hw]; subst.
    - destruct (g_ok _ _ Hs) as (_ & _ & X & _). exact X.
    - rewrite o_after. pose proof (tr_nonneg P Hdur l). apply HA in Ha. lia.
    - rewrite o_after. pose proof (walk_nonneg P Hdur _ _ _ Hw). apply HA in Ha. lia.
  Qed.
  Lemma label_bounds k l : s_rt s k l <> kInvalid P ->
    o (g_start g) <= o (s_rt s k l) <= o (g_start g) + 32000 /\ ((1 <= k)%nat -> o (s_rt s k l) <= o (g_start g) + (oq_max_travel q + B)).
  Proof.
    intros Hne. destruct (oo_travel _ _ _ _ _ _ Hok) as (T1 & T2 & T3).
    destruct (label_sound k l Hne) as (i & Hi & Hp & Hr).
    assert (Hlow := ready_lower _ _ _ Hr).
    assert (HB : (1 <= k)%nat -> o (s_rt s k l) <= o (g_start g) + (oq_max_travel q + B)).
    { intros Hk. assert (Hdur := oo_durations _ _ _ _ _ _ Hok). pose proof OL_start.
      assert (Hb := run_group_bounded P (o (g_worst g)) B).
      assert (X := Hb ltac:(rewrite g_worst_o; lia) T2 (fun l => conj (tr_nonneg P Hdur l) (oo_transfers _ _ _ _ _ _ Hok l))
                      (fun l l' d Hw => conj (walk_nonneg P Hdur _ _ _ Hw) (oo_walks _ _ _ _ _ _ Hok _ _ _ Hw))
                      (oq_max_transfers q) (reset_arrivals P) g ltac:(lia)).
      assert (Y := X ltac:(intros k0 l0 _ Hx; now contradiction Hx) k l Hk Hne). rewrite g_worst_o in Y.
      change (o (s_rt s k l) <= o (g_start g) + oq_max_travel q + B) in Y. lia. }
    split; [|exact HB]. split; [exact Hlow|]. destruct k as [|k].
    - replace i with 0%nat in Hr by lia. inversion Hr as [l0 t0 Hs|k0 l0 t0 Ha|k0 l0 t0 l1 d Ha Hw]; subst.
      + apply starts_eq in Hs as (x & Hx & _ & E). pose proof (oo_offsets _ _ _ _ _ _ Hok x Hx). rewrite g_start_eq.
        revert E. generalize (s_rt s 0%nat l). intros t E. unfold Raptor_Base.o, base_minute in *. cbn [ota_params p_fwd].
        destruct fwd; lia.
      + inversion Ha.
      + inversion Ha.
    - specialize (HB ltac:(lia)). lia.
  Qed.

  (** What the two functions of the API return for a label. *)
  Definition label_travel (x : Z) : Z := if fwd then base * 1440 + x - start else start - (base * 1440 + x).
  Lemma label_travel_o x : label_travel x = o x - o (g_start g).
  Proof. rewrite g_start_eq. unfold label_travel, Raptor_Base.o. cbn [ota_params p_fwd]. destruct fwd; lia. Qed.
  Lemma label_range k l : s_rt s k l <> kInvalid P -> 0 <= label_travel (s_rt s k l) <= 32000.
  Proof. intros H. destruct (label_bounds k l H) as [H1 _]. rewrite label_travel_o. lia. Qed.
  Lemma to_i16_small d : -32768 <= d <= 32767 -> to_i16 d = d.
  Proof. intros H. unfold to_i16. rewrite Z.mod_small; lia. Qed.
  Lemma invalid_eq : kInvalid P = if fwd then i16_max else i16_min.
  Proof. reflexivity. Qed.
  Notation reported l n := (for_each_one_to_all_round_time fwd first_day (s_rt s) l start n).
  Lemma in_reported l n k d : In (k, d) (reported l n) <-> (k <= n + 1)%nat /\ s_rt s k l <> kInvalid P /\ d = label_travel (s_rt s k l).
  Proof.
    unfold for_each_one_to_all_round_time. rewrite in_flat_map.
    assert (V : forall k, s_rt s k l <> kInvalid P ->
      to_i16 (if fwd then delta_to_unix (first_day + make_base first_day start) (s_rt s k l) - start
              else start - delta_to_unix (first_day + make_base first_day start) (s_rt s k l)) = label_travel (s_rt s k l)).
    { intros k0 Hk0. assert (R := label_range k0 l Hk0). unfold label_travel in *. unfold delta_to_unix.
      change (first_day + make_base first_day start) with base. set (x := s_rt s k0 l) in *. clearbody x.
      destruct fwd; apply to_i16_small; lia. }
    split.
    - intros (k0 & Hk0 & Hin). apply in_seq in Hk0. rewrite <- invalid_eq in Hin.
      destruct (Z.eqb_spec (s_rt s k0 l) (kInvalid P)) as [E|E]; cbn [negb] in Hin; [destruct Hin|].
      destruct Hin as [Hin|[]]. injection Hin as -> <-. split; [lia|]. split; auto.
    - intros (Hk & Hne & ->). exists k. split; [apply in_seq; lia|]. rewrite <- invalid_eq.
      destruct (Z.eqb_spec (s_rt s k l) (kInvalid P)) as [E|E]; [congruence|]. cbn [negb]. left. rewrite <- (V k Hne). reflexivity.
  Qed.
  Lemma fastest_spec l n : get_fastest_one_to_all_offsets fwd first_day (s_rt s) l start n =
    match find (fun k => negb (s_rt s k l =? kInvalid P)) (rev (seq 0 (n + 2))) with
    | Some k => Some (if fwd then label_travel (s_rt s k l) else - label_travel (s_rt s k l), k)
    | None => None
    end.
  Proof.
    unfold get_fastest_one_to_all_offsets. generalize (n + 2)%nat as m. induction m as [|m IH]; [reflexivity|].
    rewrite seq_S, rev_app_distr. cbn [rev app find fastest_from Nat.add]. rewrite <- invalid_eq.
    destruct (Z.eqb_spec (s_rt s m l) (kInvalid P)) as [E|E]; cbn [negb]; [exact IH|]. f_equal. f_equal.
    assert (R := label_range m l E). unfold label_travel in *. unfold delta_to_unix.
    change (first_day + make_base first_day start) with base. set (x := s_rt s m l) in *. clearbody x.
    destruct fwd; rewrite to_i16_small by lia; lia.
  Qed.
  Lemma fastest_last l n : 
    match get_fastest_one_to_all_offsets fwd first_day (s_rt s) l start n with
    | Some (e, k) => exists d, In (k, d) (reported l n) /\ e = (if fwd then d else - d) /\ forall k' d', In (k', d') (reported l n) -> (k' <= k)%nat
    | None => reported l n = []
    end.
  Proof.
    rewrite fastest_spec. destruct (find _ _) as [k|] eqn:Ef.
    - assert (Hk := find_some _ _ Ef). destruct Hk as [Hin Hv]. apply in_rev, in_seq in Hin.
      apply negb_true_iff, Z.eqb_neq in Hv.
      exists (label_travel (s_rt s k l)). split; [apply in_reported; split; [lia|auto]|]. split; auto.
      intros k' d' H. apply in_reported in H as (Hk' & Hne & _). clear Hv. revert Ef Hk'. replace (n + 1)%nat with (n + 2 - 1)%nat by lia.
      generalize (n + 2)%nat as m. clear -Hne.
      induction m as [|m IH]; [discriminate|]. rewrite seq_S, rev_app_distr. cbn [rev app find Nat.add].
      destruct (Z.eqb_spec (s_rt s m l) (kInvalid P)) as [E|E]; cbn [negb].
      + intros Hf Hk'. destruct (Nat.eq_dec k' m) as [->|]; [contradiction|]. apply IH; auto. lia.
      + intros [= <-] Hk'. lia.
    - destruct (reported l n) as [|[k d] rest] eqn:E; auto. exfalso.
      assert (Hin : In (k, d) (reported l n)) by (rewrite E; left; auto).
      apply in_reported in Hin as (Hk & Hne & _).
      assert (X := find_none _ _ Ef k). apply Hne. apply Z.eqb_eq. apply negb_false_iff. apply X. apply in_rev. rewrite rev_involutive. apply in_seq. lia.
  Qed.

  Lemma travel_o u : travel_time fwd q u = o (u - base_minute first_day q) - o (g_start g).
  Proof. rewrite g_start_eq. unfold travel_time, base_minute, Raptor_Base.o. cbn [ota_params p_fwd]. destruct fwd; lia. Qed.
  Lemma travel_label x : travel_time fwd q (x + base_minute first_day q) = label_travel x.
  Proof. unfold travel_time, label_travel, base_minute. destruct fwd; lia. Qed.
  Lemma label_imp : imp P (o (g_worst g)) (Nat.min (oq_max_transfers q) 14 + 1) s.
  Proof.
    refine (group_imp P Hnodest Hnoend Hlb (o (g_worst g)) _ (oq_max_transfers q) g eq_refl). rewrite g_worst_o. pose proof OL_start.
    destruct (oo_travel _ _ _ _ _ _ Hok). lia.
  Qed.
End Proofs.

(** * C53  One-to-all *)
(** Every travel time reported for a location is one a traveller can realise: with at most [k] rides (and at least one for k > 0);
    [k] does not exceed the limits; the time is at most the maximal travel time plus one transfer or walk. *)
Theorem C53_reported_times_are_possible : forall fwd tt L first_day q B l transfers k d,
  ota_ok fwd tt L first_day q B ->
  In (k, d) (for_each_one_to_all_round_time fwd first_day (s_rt (one_to_all fwd tt L first_day q)) l (oq_start_time q) transfers) ->
  (k <= transfers + 1)%nat /\ (k <= Nat.min (oq_max_transfers q) 14 + 1)%nat /\ 0 <= d /\ ((1 <= k)%nat -> d <= oq_max_travel q + B) /\
  exists i, (i <= k)%nat /\ ((1 <= k)%nat -> (1 <= i)%nat) /\
    can_be_at fwd tt L first_day q i l (if fwd then oq_start_time q + d else oq_start_time q - d).
Proof.
  intros fwd tt L first_day q B l transfers k d Hok Hin.
  apply (in_reported fwd tt L first_day q B Hok) in Hin as (Hk & Hne & ->).
  assert (R := label_range fwd tt L first_day q B Hok k l Hne).
  assert (Lb := label_bounds fwd tt L first_day q B Hok k l Hne).
  assert (So := label_sound fwd tt L first_day q B Hok k l Hne).
  assert (E := label_travel_o fwd tt L first_day q B Hok (s_rt (one_to_all fwd tt L first_day q) k l)).
  split; [lia|]. split.
  { destruct (Nat.le_gt_cases k (Nat.min (oq_max_transfers q) 14 + 1)) as [H|H]; auto. exfalso. apply Hne.
    apply (im_above _ _ _ _ (label_imp fwd tt L first_day q B Hok)). lia. }
  split; [lia|]. destruct Lb as [_ Lb]. split; [intros H; specialize (Lb H); lia|].
  destruct So as (i & Hi & Hp & Hr). exists i. split; auto. split; auto. apply (ready_eq fwd tt L first_day q B Hok) in Hr.
  set (x := s_rt (one_to_all fwd tt L first_day q) k l) in *. clearbody x. clear -Hr.
  assert (E : (if fwd then oq_start_time q + label_travel fwd first_day q x else oq_start_time q - label_travel fwd first_day q x)
              = x + base_minute first_day q) by (unfold label_travel, base_minute; destruct fwd; lia).
  rewrite E. exact Hr.
Qed.

(** Nothing is missed: whatever can be reached within the maximal travel time (and five days) is reported, with no more rides and no
    later. *)
Theorem C53_nothing_missed : forall fwd tt L first_day q B l transfers K u,
  ota_ok fwd tt L first_day q B ->
  can_be_at fwd tt L first_day q K l u ->
  travel_time fwd q u <= oq_max_travel q -> travel_time fwd q u <= 7200 ->
  (K <= Nat.min (oq_max_transfers q) 14 + 1)%nat -> (K <= transfers + 1)%nat ->
  exists k d, In (k, d) (for_each_one_to_all_round_time fwd first_day (s_rt (one_to_all fwd tt L first_day q)) l (oq_start_time q) transfers) /\
    (k <= K)%nat /\ d <= travel_time fwd q u.
Proof.
  intros fwd tt L first_day q B l transfers K u Hok Hc Hm Hh HK HKt.
  rewrite (travel_o fwd tt L first_day q B Hok) in *. set (P := ota_params fwd tt first_day q) in *.
  set (t := u - base_minute first_day q) in *.
  assert (Hr : ready P (fun l t => In (l, t) (g_starts (ota_group fwd L first_day q))) (transfer_time P) K l t).
  { apply (ready_eq fwd tt L first_day q B Hok). unfold t. replace (u - base_minute first_day q + base_minute first_day q) with u by lia. exact Hc. }
  pose proof (OL_start fwd tt L first_day q B Hok) as HL. fold P in HL.
  destruct (oo_travel _ _ _ _ _ _ Hok) as (T1 & T2 & T3).
  destruct (ota_complete P (Hnodest _ _ _ _) (Hnoend _ _ _ _) (Hlb _ _ _ _) (oo_vehicles _ _ _ _ _ _ Hok) (oo_durations _ _ _ _ _ _ Hok)
              (oo_locations _ _ _ _ _ _ Hok) (oo_columns _ _ _ _ _ _ Hok) (oo_index _ _ _ _ _ _ Hok) (oo_fifo _ _ _ _ _ _ Hok)
              (oq_max_transfers q) (ota_group fwd L first_day q) (g_ok fwd tt L first_day q B Hok) ltac:(lia) K l t HK) as (j & Hj & Hle);
    [| |lia|exact Hr|].
  - unfold P. rewrite (g_worst_o fwd tt L first_day q B Hok). fold P. lia.
  - lia.
  - assert (Hne : s_rt (one_to_all fwd tt L first_day q) j l <> kInvalid P).
    { intros E. change (o P (s_rt (one_to_all fwd tt L first_day q) j l) <= o P t) in Hle. rewrite E, o_kInvalid in Hle. lia. }
    exists j, (label_travel fwd first_day q (s_rt (one_to_all fwd tt L first_day q) j l)).
    split; [apply (in_reported fwd tt L first_day q B Hok); split; [lia|auto]|]. split; auto.
    rewrite (label_travel_o fwd tt L first_day q B Hok). fold P.
    change (o P (s_rt (one_to_all fwd tt L first_day q) j l) <= o P t) in Hle. lia.
Qed.

(** More rides are only reported when they are strictly faster - as long as the time stays within the maximal travel time. *)
Theorem C53_more_rides_are_faster : forall fwd tt L first_day q B l transfers k d k' d',
  ota_ok fwd tt L first_day q B ->
  let reported := for_each_one_to_all_round_time fwd first_day (s_rt (one_to_all fwd tt L first_day q)) l (oq_start_time q) transfers in
  In (k, d) reported -> In (k', d') reported -> (k < k')%nat -> d <= oq_max_travel q -> d' < d.
Proof.
  intros fwd tt L first_day q B l transfers k d k' d' Hok reported Hin Hin' Hlt Hm. unfold reported in *. clear reported.
  apply (in_reported fwd tt L first_day q B Hok) in Hin as (Hk & Hne & ->).
  apply (in_reported fwd tt L first_day q B Hok) in Hin' as (Hk' & Hne' & ->).
  rewrite !(label_travel_o fwd tt L first_day q B Hok) in *.
  assert (X := im_dec _ _ _ _ (label_imp fwd tt L first_day q B Hok) k k' l Hlt Hne').
  rewrite (g_worst_o fwd tt L first_day q B Hok) in X. lia.
Qed.

(** The fastest offset: whenever the location can be reached within the maximal travel time, the returned duration [e] and number of
    rides [k] are optimal: realisable, no later than any other possibility, and every possibility with fewer rides is later. *)
Theorem C53_fastest_offset_is_optimal : forall fwd tt L first_day q B l transfers K u,
  ota_ok fwd tt L first_day q B ->
  can_be_at fwd tt L first_day q K l u ->
  travel_time fwd q u <= oq_max_travel q -> travel_time fwd q u <= 7200 ->
  (K <= Nat.min (oq_max_transfers q) 14 + 1)%nat -> (K <= transfers + 1)%nat ->
  exists e k, get_fastest_one_to_all_offsets fwd first_day (s_rt (one_to_all fwd tt L first_day q)) l (oq_start_time q) transfers = Some (e, k) /\
    (exists i, (i <= k)%nat /\ ((1 <= k)%nat -> (1 <= i)%nat) /\ can_be_at fwd tt L first_day q i l (oq_start_time q + e)) /\
    travel_time fwd q (oq_start_time q + e) <= travel_time fwd q u /\
    forall K' u', can_be_at fwd tt L first_day q K' l u' -> (K' <= Nat.min (oq_max_transfers q) 14 + 1)%nat -> (K' <= transfers + 1)%nat ->
      travel_time fwd q (oq_start_time q + e) <= travel_time fwd q u' /\
      ((K' < k)%nat -> travel_time fwd q (oq_start_time q + e) < travel_time fwd q u').
Proof.
  intros fwd tt L first_day q B l transfers K u Hok Hc Hm Hh HK HKt.
  destruct (C53_nothing_missed _ _ _ _ _ _ l transfers K u Hok Hc Hm Hh HK HKt) as (k0 & d0 & Hin0 & Hk0 & Hd0).
  pose proof (fastest_last fwd tt L first_day q B Hok l transfers) as Hf.
  destruct (get_fastest_one_to_all_offsets fwd first_day (s_rt (one_to_all fwd tt L first_day q)) l (oq_start_time q) transfers) as [[e k]|].
  2: { rewrite Hf in Hin0. destruct Hin0. }
  destruct Hf as (d & Hin & He & Hmax). exists e, k. split; auto.
  assert (Et : travel_time fwd q (oq_start_time q + e) = d) by (unfold travel_time; rewrite He; destruct fwd; lia).
  assert (Eu : oq_start_time q + e = if fwd then oq_start_time q + d else oq_start_time q - d) by (rewrite He; destruct fwd; lia).
  assert (Hbest : forall k1 d1, In (k1, d1) (for_each_one_to_all_round_time fwd first_day (s_rt (one_to_all fwd tt L first_day q)) l (oq_start_time q) transfers) ->
            d1 <= oq_max_travel q -> d <= d1 /\ ((k1 < k)%nat -> d < d1)).
  { intros k1 d1 Hin1 Hm1. specialize (Hmax _ _ Hin1). destruct (Nat.eq_dec k1 k) as [->|Hne].
    - apply (in_reported fwd tt L first_day q B Hok) in Hin as (_ & _ & Ed). apply (in_reported fwd tt L first_day q B Hok) in Hin1 as (_ & _ & Ed1).
      split; [lia|intros; lia].
    - assert (X := C53_more_rides_are_faster _ _ _ _ _ _ l transfers k1 d1 k d Hok Hin1 Hin ltac:(lia) Hm1). lia. }
  assert (Hd : d <= d0) by (apply (Hbest k0 d0); auto; lia).
  split; [|split].
  - rewrite Eu. apply (C53_reported_times_are_possible _ _ _ _ _ _ _ _ _ _ Hok Hin).
  - rewrite Et. lia.
  - rewrite Et. intros K' u' Hc' HK' HKt'.
    destruct (Z.le_gt_cases (travel_time fwd q u') d0) as [Hle|Hgt]; [|lia].
    destruct (C53_nothing_missed _ _ _ _ _ _ l transfers K' u' Hok Hc' ltac:(lia) ltac:(lia) HK' HKt') as (k1 & d1 & Hin1 & Hk1 & Hd1).
    destruct (Hbest k1 d1 Hin1 ltac:(lia)) as [X1 X2]. split; [lia|]. intros Hlt. specialize (X2 ltac:(lia)). lia.
Qed.

(** * Non-vacuity *)
Module ExampleOta.
  (** Stations A = 0, B = 1, D = 2, E = 3.  A - B 08:00 - 08:30; A - D 07:51 - 07:55; D - E 08:00 - 08:31; walk E - B 8 minutes;
      transfer times 5 minutes.  Days 10 .. 19 of the timetable.  The traveller is at A at 07:50 on day 10. *)
  Definition veh (a b : Z) : vehicle :=
    mk_vehicle (fun s _ => mk_delta 0 (match s with O => a | _ => b end)) (fun d => (10 <=? d) && (d <? 20)).
  Definition st (l : Z) : stop := mk_stop l true true true true.
  Definition rt (x y a b : Z) : route := mk_route [st x; st y] 3 (fun _ => false) (fun _ => false) (fun _ _ => false) [veh a b] None.
  Definition tt := mk_tt 4 [rt 0 1 480 510; rt 0 2 471 475; rt 2 3 480 511]
    (fun l => match l with 0%nat => [0%nat; 1%nat] | 1%nat => [0%nat] | 2%nat => [1%nat; 2%nat] | 3%nat => [2%nat] | _ => [] end)
    (fun _ => 5) (fun l => match l with 3%nat => [(1%nat, 8)] | _ => [] end) (fun l => match l with 1%nat => [(3%nat, 8)] | _ => [] end)
    (fun _ d => (10 <=? d) && (d <? 20)).
  Definition L := Query_Model.mk_locs (fun _ => None) (fun _ => []) (fun _ => []) (fun _ => false).
  Definition q (start : Z) (l : nat) (max_travel : Z) : ota_query :=
    mk_ota_query ((20010) * 1440 + start) [Query_Model.mk_offset l 0 0] Query_Model.kExact max_travel 5 (fun _ => true) (fun _ => false) (fun d => d).
  Notation P := (ota_params true tt 20000 (q 470 0 120)).

  Lemma routes ri r : nth_error (tt_routes tt) ri = Some r ->
    (ri = 0%nat /\ r = rt 0 1 480 510) \/ (ri = 1%nat /\ r = rt 0 2 471 475) \/ (ri = 2%nat /\ r = rt 2 3 480 511).
  Proof. destruct ri as [|[|[|[|ri]]]]; cbn; intros H; try discriminate; injection H as <-; auto. Qed.
  Lemma route_shape ri r : nth_error (tt_routes tt) ri = Some r -> exists x y a b, r = rt x y a b /\ 0 <= a < b /\ b < 1440 /\ 0 <= x < 4 /\ 0 <= y < 4.
  Proof. intros H. apply routes in H as [[_ ->]|[[_ ->]|[_ ->]]]; do 4 eexists; (split; [reflexivity|lia]). Qed.
  Lemma wf : all_vehicles_wf P.
  Proof.
    split; [|apply static_rt_ok; intros ri r Hr; apply route_shape in Hr as (x & y & a & b & -> & _); reflexivity].
    intros ri r v Hr Hv. apply route_shape in Hr as (x & y & a & b & -> & Hab & Hb & _). cbn in Hv. destruct Hv as [<-|[]].
    split; [|split]; unfold event_minutes, veh; cbn [v_ev d_days d_mam rt r_stops length].
    - intros s e Hl. destruct s; lia.
    - intros s Hl. lia.
    - intros s s' Hl. destruct s; destruct s'; lia.
  Qed.
  Lemma dur : durations_ok P.
  Proof.
    split; [cbn; lia|]. split; [cbn; lia|]. split; [|cbn; discriminate].
    intros l l' d H. cbn in H. destruct l as [|[|[|[|l]]]]; cbn in H; try tauto. destruct H as [H|[]]. injection H as _ <-. lia.
  Qed.
  Lemma loc : locations_ok P.
  Proof.
    split; [|split].
    - intros ri r s0 Hr Hin. apply route_shape in Hr as (x & y & a & b & -> & _ & _ & Hx & Hy). cbn in Hin.
      destruct Hin as [<-|[<-|[]]]; cbn [st s_loc ota_params p_tt tt tt_n_locations]; lia.
    - intros l l' d H. cbn in H. destruct l as [|[|[|[|l]]]]; cbn in H; try tauto. destruct H as [H|[]]. injection H as <- _. cbn; lia.
    - cbn. discriminate.
  Qed.
  Lemma cols : columns_sorted P.
  Proof.
    intros ri r i j v w s e Hr Hij Hv Hw Hs. apply route_shape in Hr as (x & y & a & b & -> & _). cbn in Hv, Hw.
    destruct i as [|i]; destruct j as [|j]; cbn in *; try lia; try (destruct i; discriminate); try (destruct j; discriminate).
    injection Hv as <-. injection Hw as <-. lia.
  Qed.
  Lemma idx : index_ok P.
  Proof.
    split.
    - intros ri r s0 Hr Hin. apply routes in Hr as [[-> ->]|[[-> ->]|[-> ->]]]; cbn in Hin; destruct Hin as [<-|[<-|[]]]; vm_compute; auto.
    - intros ri r v day s e Hr Hv [Hd Hrun] Hs. apply route_shape in Hr as (x & y & a & b & -> & _). destruct Hv as [<-|[]].
      cbn [veh v_ev v_days d_days] in *. rewrite Z.add_0_r. split; [lia|exact Hrun].
  Qed.
  Lemma fifo_ok : fifo P.
  Proof.
    intros ri r i v day j w day' s s' Hr Hi Hj Hrun Hrun' Hs Hs' Hlt tv tw Hle _. unfold tv, tw in Hle. clear tv tw.
    apply nth_error_In in Hi as Hv. apply nth_error_In in Hj as Hw.
    apply route_shape in Hr as (x & y & a & b & -> & Hab & Hb & _). destruct Hv as [<-|[]]. destruct Hw as [<-|[]].
    unfold no_later, event_time in *. cbn [ota_params p_fwd p_base veh v_ev d_days d_mam] in *. destruct s; destruct s'; lia.
  Qed.
  Lemma ok m : 0 <= m <= 1000 -> ota_ok true tt L 20000 (q 470 0 m) 8.
  Proof.
    intros Hm. constructor.
    - exact wf.
    - exact dur.
    - exact loc.
    - exact cols.
    - exact idx.
    - exact fifo_ok.
    - vm_compute. split; congruence.
    - intros s [<-|[]]. cbn. lia.
    - intros s l [<-|[]] [<-|[]]. cbn. lia.
    - cbn. lia.
    - intros l. cbn. lia.
    - intros l l' d (d0 & H & ->). cbn in H |- *. destruct l as [|[|[|[|l]]]]; cbn in H; try tauto. destruct H as [H|[]]. injection H as _ <-. lia.
  Qed.
  Lemma run10 a b : runs_on (veh a b) 10.
  Proof. unfold runs_on. cbn. lia. Qed.
  (** A 07:51 - D 07:55, D 08:00 - E 08:31, ready at E at 08:36 with two rides. *)
  Lemma at_E : can_be_at true tt L 20000 (q 470 0 120) 2 3 (20010 * 1440 + 516).
  Proof.
    unfold can_be_at. change (20010 * 1440 + 516 - base_minute 20000 (q 470 0 120)) with (after P 511 (transfer_time P 3)).
    apply ready_transfer. apply (arrived_ride P _ _ 1 2 480 480 3 511); [|unfold no_later; cbn; lia|].
    - change 480 with (after P 475 (transfer_time P 2)). apply ready_transfer.
      apply (arrived_ride P _ _ 0 0 470 471 2 475); [|unfold no_later; cbn; lia|].
      + apply ready_start. exists (Query_Model.mk_offset 0 0 0). split; [left; reflexivity|]. split; [left; reflexivity|]. reflexivity.
      + apply (ride_intro P 0%nat 471 2%nat 475 1%nat (rt 0 2 471 475) 0%nat (veh 471 475) 10 0%nat 1%nat (st 0) (st 2));
          try reflexivity; try (apply run10); cbn; try lia; intros; discriminate.
    - apply (ride_intro P 2%nat 480 3%nat 511 2%nat (rt 2 3 480 511) 0%nat (veh 480 511) 10 0%nat 1%nat (st 2) (st 3));
          try reflexivity; try (apply run10); cbn; try lia; intros; discriminate.
  Qed.
  Notation fastest m l := (get_fastest_one_to_all_offsets true 20000 (s_rt (one_to_all true tt L 20000 (q 470 0 m))) l (20010 * 1440 + 470) 5).
  Notation all m l := (for_each_one_to_all_round_time true 20000 (s_rt (one_to_all true tt L 20000 (q 470 0 m))) l (20010 * 1440 + 470) 5).
  (** The hypotheses of the theorems are met, and the results are the expected ones: A after 0, B after 45, E after 46 minutes. *)
  Example C53_nonvacuous :
    ota_ok true tt L 20000 (q 470 0 120) 8 /\ can_be_at true tt L 20000 (q 470 0 120) 2 3 (20010 * 1440 + 516) /\
    travel_time true (q 470 0 120) (20010 * 1440 + 516) = 46 /\
    fastest 120 0%nat = Some (0, 0%nat) /\ fastest 120 1%nat = Some (45, 1%nat) /\ fastest 120 3%nat = Some (46, 2%nat) /\
    all 120 3%nat = [(2%nat, 46)].
  Proof.
    split; [apply ok; lia|]. split; [exact at_E|]. split; [reflexivity|]. vm_compute. auto.
  Qed.
  (** Backward: the duration of the fastest offset is negative, the other function reports positive durations. *)
  Example backward_signs :
    let s := s_rt (one_to_all false tt L 20000 (q 520 1 120)) in
    get_fastest_one_to_all_offsets false 20000 s 0 (20010 * 1440 + 520) 5 = Some (- 45, 1%nat) /\
    for_each_one_to_all_round_time false 20000 s 0 (20010 * 1440 + 520) 5 = [(1%nat, 45)].
  Proof. vm_compute. auto. Qed.
End ExampleOta.

(** "Journeys with travel time exactly [max_travel_time_] are found, slower ones are not" (comment in one_to_all.cc:39-41) is false: the
    label of a stop is written before it is compared with the bound, so a stop whose vehicle arrives in time is reported with its
    transfer time - beyond the bound. *)
Theorem C53_bound_refuted :
  ~ (forall fwd tt L first_day q B l transfers k d, ota_ok fwd tt L first_day q B ->
       In (k, d) (for_each_one_to_all_round_time fwd first_day (s_rt (one_to_all fwd tt L first_day q)) l (oq_start_time q) transfers) ->
       d <= oq_max_travel q).
Proof.
  intros H. assert (X := H true ExampleOta.tt ExampleOta.L 20000 (ExampleOta.q 470 0 42) 8 1%nat 0%nat 1%nat 45 (ExampleOta.ok 42 ltac:(lia))).
  cbn [ExampleOta.q oq_max_travel] in X.
  assert (Z45 : 45 <= 42); [|lia]. apply X. clear. vm_compute. left. reflexivity.
Qed.
(** Beyond the bound the "fastest" offset need not be the fastest reported one: with a maximal travel time of 42 minutes, B is reported
    after 45 minutes with one ride and after 49 minutes with two, and the latter is returned as the fastest. *)
Theorem C53_fastest_beyond_bound_refuted :
  ~ (forall fwd tt L first_day q B l transfers e k k' d, ota_ok fwd tt L first_day q B ->
       get_fastest_one_to_all_offsets fwd first_day (s_rt (one_to_all fwd tt L first_day q)) l (oq_start_time q) transfers = Some (e, k) ->
       In (k', d) (for_each_one_to_all_round_time fwd first_day (s_rt (one_to_all fwd tt L first_day q)) l (oq_start_time q) transfers) ->
       Z.abs e <= d).
Proof.
  intros H.
  assert (X := H true ExampleOta.tt ExampleOta.L 20000 (ExampleOta.q 470 0 42) 8 1%nat 5%nat 49 2%nat 1%nat 45 (ExampleOta.ok 42 ltac:(lia))).
  assert (Z45 : Z.abs 49 <= 45); [|cbn in Z45; lia]. apply X; clear; vm_compute; [reflexivity|left; reflexivity].
Qed.

Print Assumptions C53_reported_times_are_possible.
Print Assumptions C53_nothing_missed.
Print Assumptions C53_fastest_offset_is_optimal.
