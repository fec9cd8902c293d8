(** Soundness of the round-based search: every label is realised by a connection of the specification. *)
From Coq Require Import List ZArith Bool Arith Lia.
From Verif Require Import Base Time_Model Raptor_Model Raptor_Spec Raptor_Base.
Import ListNotations.
Local Open Scope Z_scope.

Lemma fold_left_inv {A B} (f : A -> B -> A) (Q : A -> Prop) l a :
  Q a -> (forall a b, In b l -> Q a -> Q (f a b)) -> Q (fold_left f l a).
Proof.
  revert a; induction l as [|b l IH]; simpl; intros a Ha Hs; auto.
Qed.
(** Invariant indexed by the position in [seq 0 n]. *)
Lemma fold_left_seq_inv {A} (f : A -> nat -> A) (Q : nat -> A -> Prop) n a :
  Q 0%nat a -> (forall i a, (i < n)%nat -> Q i a -> Q (S i) (f a i)) -> Q n (fold_left f (seq 0 n) a).
Proof.
  intros H0 Hs. assert (H : forall m k a, (k + m = n)%nat -> Q k a -> Q n (fold_left f (seq k m) a)).
  { induction m as [|m IH]; intros k b Hk Hb; simpl.
    - now replace n with k by lia.
    - apply IH; [lia|]. apply Hs; auto. lia. }
  now apply (H n 0%nat).
Qed.

Lemma upd_eq {A} (f : nat -> A) i x : upd f i x i = x.
Proof. unfold upd. now rewrite Nat.eqb_refl. Qed.
Lemma upd_neq {A} (f : nat -> A) i j x : i <> j -> upd f i x j = f j.
Proof. unfold upd. now destruct (Nat.eqb_spec i j). Qed.
Lemma upd_cases {A} (f : nat -> A) i j x : (i = j /\ upd f i x j = x) \/ (i <> j /\ upd f i x j = f j).
Proof. unfold upd. destruct (Nat.eqb_spec i j); auto. Qed.

Section Sound.
  Variable P : params.
  Notation fwd := (p_fwd P).
  Notation tt := (p_tt P).
  Notation o := (o P).
  Notation OI := (OI P).
  Notation OL := (OL P).
  Notation kInvalid := (kInvalid P).

  Hypothesis Hwf : all_vehicles_wf P.
  Hypothesis Hdur : durations_ok P.
  Hypothesis Hend : end_ok P.
  Variable St : nat -> Z -> Prop.
  Hypothesis HSt : forall l t, St l t -> OL < o t.

  (** Transfer time the search applies: none at a station destination. *)
  Definition tr_eff (l : nat) : Z :=
    if negb (is_intermodal_dest P) && p_is_dest P l then 0 else transfer_time P l.

  Notation Ready := (ready P St tr_eff).
  Notation Arr := (arrived P St tr_eff).
  Definition Lbl (k l : nat) (t : Z) : Prop :=
    Ready k l t \/
    exists off l0 t0 d, p_dist_to_end P = Some off /\ l = p_end P /\ Arr k l0 t0 /\ off l0 = Some d /\ t = after P t0 d.

  Lemma adjust_nonneg d : 0 <= d -> 0 <= p_adjust P d.
  Proof. apply Hdur. Qed.
  Lemma tr_eff_nonneg l : 0 <= tr_eff l.
  Proof.
    unfold tr_eff, transfer_time. destruct (_ && _); [lia|]. apply adjust_nonneg. apply Hdur.
  Qed.
  Lemma walk_nonneg l l' d : walk P l l' d -> 0 <= d.
  Proof. intros (d0 & Hin & ->). apply adjust_nonneg. destruct Hdur as (_ & _ & Hw & _). eapply Hw; eauto. Qed.

  Lemma event_order ri r v d s s' :
    nth_error (tt_routes tt) ri = Some r -> In v (r_vehicles r) ->
    (s < length (r_stops r))%nat -> (s' < length (r_stops r))%nat -> (if fwd then (s < s')%nat else (s' < s)%nat) ->
    o (bt P v d s) <= o (at_ P v d s').
  Proof.
    intros Hr Hv Hs Hs' Hlt. destruct (proj1 Hwf _ _ _ Hr Hv) as (_ & _ & Hm).
    unfold bt, at_, event_time, Raptor_Base.o. unfold event_minutes in Hm. destruct fwd.
    - specialize (Hm s s' ltac:(lia)). lia.
    - specialize (Hm s' s ltac:(lia)). lia.
  Qed.
  Lemma ride_ok_order l tb l' ta : ride_ok P l tb l' ta -> o tb <= o ta.
  Proof.
    intros [ri r vi v day s s' st st' Hr Hv _ Hs Hs' Hlt _ _ _ _ _ _ -> ->].
    eapply event_order; eauto using nth_error_In.
    - apply nth_error_Some. congruence.
    - apply nth_error_Some. congruence.
  Qed.

  Lemma reach_lower (B : Z) : (forall l t, St l t -> B <= o t) ->
    (forall k l t, Ready k l t -> B <= o t) /\ (forall k l t, Arr k l t -> B <= o t).
  Proof.
    intros HB.
    assert (H : forall k, (forall l t, Arr k l t -> B <= o t) /\ (forall l t, Ready k l t -> B <= o t)).
    { assert (HR : forall k, (forall l t, Arr k l t -> B <= o t) -> forall l t, Ready k l t -> B <= o t).
      { intros k HA l t Hrd. inversion Hrd as [l0 t0 Hs|k0 l0 t0 Ha|k0 l0 t0 l1 d Ha Hw]; subst.
        - eauto.
        - rewrite o_after. pose proof (tr_eff_nonneg l). apply HA in Ha. lia.
        - rewrite o_after. pose proof (walk_nonneg _ _ _ Hw). apply HA in Ha. lia. }
      induction k as [|k [IHa IHr]].
      - assert (H0 : forall l t, Arr 0 l t -> B <= o t) by (intros l t Ha; inversion Ha). split; auto. now apply HR.
      - assert (HA : forall l t, Arr (S k) l t -> B <= o t).
        { intros l t Ha. inversion Ha as [k0 l0 t0 tb l' ta Hr Hn Hride]; subst.
          apply IHr in Hr. apply no_later_o in Hn. apply ride_ok_order in Hride. lia. }
        split; [exact HA|]. exact (HR _ HA). }
    split; intros k l t; apply H.
  Qed.
  Lemma HSt' l t : St l t -> OL + 1 <= o t.
  Proof. intros H. specialize (HSt _ _ H). lia. Qed.
  Lemma Arr_lower' k l t : Arr k l t -> OL < o t.
  Proof. intros H. apply (reach_lower (OL + 1) HSt') in H. lia. Qed.
  Lemma Ready_lower' k l t : Ready k l t -> OL < o t.
  Proof. intros H. apply (reach_lower (OL + 1) HSt') in H. lia. Qed.
  Lemma Arr_lower k l t : Arr k l t -> OL <= o t.
  Proof. intros H. apply Arr_lower' in H. lia. Qed.
  Lemma Ready_lower k l t : Ready k l t -> OL <= o t.
  Proof. intros H. apply Ready_lower' in H. lia. Qed.

  Lemma delta_count_wf ri r v s e :
    nth_error (tt_routes tt) ri = Some r -> In v (r_vehicles r) -> (s < length (r_stops r))%nat ->
    delta_count (v_ev v s e) = event_minutes v s e.
  Proof.
    intros Hr Hv Hs. destruct (proj1 Hwf _ _ _ Hr Hv) as (Hm & _ & _). specialize (Hm s e Hs).
    unfold delta_count, to_i16, event_minutes in *. rewrite Z.mod_small; lia.
  Qed.
  Lemma time_at_stop_eq ri r x v d s e :
    nth_error (tt_routes tt) ri = Some r -> nth_error (r_vehicles r) x = Some v -> (s < length (r_stops r))%nat ->
    time_at_stop P r (x, d) s e = clamp16 (event_time P v d s e).
  Proof.
    intros Hr Hv Hs. unfold time_at_stop, to_delta. cbn [fst snd]. rewrite (vehicle_of_nth _ _ _ Hv).
    rewrite (delta_count_wf ri r) by eauto using nth_error_In. unfold event_time, event_minutes. f_equal. lia.
  Qed.

  (** ** The label state is sound *)
  Record sinv (k : nat) (s : state) : Prop := mk_sinv {
    si_rt_range : forall j l, o (s_rt s j l) <= OI;
    si_tmp_range : forall l, o (s_tmp s l) <= OI;
    si_best_range : forall l, o (s_best s l) <= OI;
    si_rt : forall j l, s_rt s j l <> kInvalid -> exists i, (i <= j)%nat /\ Lbl i l (s_rt s j l);
    si_tmp : forall l, s_tmp s l <> kInvalid -> exists i, (i <= k)%nat /\ Arr i l (s_tmp s l) }.

  Lemma sinv_weaken k k' s : (k <= k')%nat -> sinv k s -> sinv k' s.
  Proof.
    intros Hk [H1 H2 H3 H4 H5]. split; auto. intros l Hl. destruct (H5 l Hl) as (i & ? & ?). exists i. split; auto. lia.
  Qed.

  Lemma transfer_to_sinv k target fp b s :
    (fp <> kInvalid -> exists i, (i <= k)%nat /\ Lbl i target fp) ->
    sinv k s -> sinv k (transfer_to P k target fp b s).
  Proof.
    intros Hfp [H1 H2 H3 H4 H5]. unfold transfer_to.
    destruct (is_better P fp (s_best s target)) eqn:Eb; cbn [andb]; [|split; auto].
    apply is_better_o in Eb.
    assert (Hne : fp <> kInvalid).
    { intros ->. rewrite o_kInvalid in Eb. specialize (H3 target). lia. }
    specialize (Hfp Hne).
    assert (Hr : forall fp', (fp' = fp \/ fp' = s_rt s k target) -> forall j l, o (upd (s_rt s) k (upd (s_rt s k) target fp') j l) <= OI).
    { intros fp' Hc j l. destruct (upd_cases (s_rt s) k j (upd (s_rt s k) target fp')) as [[<- ->]|[_ ->]]; auto.
      destruct (upd_cases (s_rt s k) target l fp') as [[<- ->]|[_ ->]]; auto.
      destruct Hc as [->| ->]; auto. specialize (H3 target). lia. }
    assert (Hl : forall fp', (fp' = fp \/ fp' = s_rt s k target) ->
       forall j l, upd (s_rt s) k (upd (s_rt s k) target fp') j l <> kInvalid ->
       exists i, (i <= j)%nat /\ Lbl i l (upd (s_rt s) k (upd (s_rt s k) target fp') j l)).
    { intros fp' Hc j l. destruct (upd_cases (s_rt s) k j (upd (s_rt s k) target fp')) as [[<- ->]|[_ ->]]; auto.
      destruct (upd_cases (s_rt s k) target l fp') as [[<- ->]|[_ ->]]; auto.
      destruct Hc as [->| ->]; auto. }
    destruct (is_better_or_eq P fp (s_tad s k) && (lb_reachable P target && is_better_or_eq P (fp + dir P (p_lb P target)) (s_tad s k))).
    - split; cbn [s_rt s_tmp s_best]; auto.
      + intros j l. set (rt' := upd (s_rt s) k (upd (s_rt s k) target (get_best P fp (s_rt s k target)))).
        assert (E : forall j l, upd rt' k (upd (rt' k) target fp) j l = upd (s_rt s) k (upd (s_rt s k) target fp) j l).
        { intros j' l'. unfold rt', upd. rewrite Nat.eqb_refl. destruct (Nat.eqb k j'); auto. destruct (Nat.eqb target l'); auto. }
        rewrite E. apply Hr; auto.
      + intros l. destruct (upd_cases (s_best s) target l fp) as [[<- ->]|[_ ->]]; auto. specialize (H3 target). lia.
      + intros j l. set (rt' := upd (s_rt s) k (upd (s_rt s k) target (get_best P fp (s_rt s k target)))).
        assert (E : forall j l, upd rt' k (upd (rt' k) target fp) j l = upd (s_rt s) k (upd (s_rt s k) target fp) j l).
        { intros j' l'. unfold rt', upd. rewrite Nat.eqb_refl. destruct (Nat.eqb k j'); auto. destruct (Nat.eqb target l'); auto. }
        rewrite E. apply Hl; auto.
    - split; cbn [s_rt s_tmp s_best]; auto.
      + apply Hr. apply get_best_cases.
      + apply Hl. apply get_best_cases.
  Qed.

  Lemma update_transfers_sinv k s : sinv k s -> sinv k (update_transfers P k s).
  Proof.
    intros H. unfold update_transfers. apply fold_left_inv; auto. clear s H. intros s i _ H.
    destruct (s_prev s i && negb (s_tmp s i =? kInvalid)) eqn:E; auto.
    apply andb_true_iff in E as [_ E]. apply negb_true_iff, Z.eqb_neq in E.
    destruct (si_tmp _ _ H _ E) as (j & Hj & Ha).
    apply transfer_to_sinv; auto. intros Hne.
    set (tr := if negb (is_intermodal_dest P) && p_is_dest P i then 0 else dir P (p_adjust P (tt_transfer_time tt i))) in *.
    assert (Etr : s_tmp s i + tr = after P (s_tmp s i) (tr_eff i)).
    { rewrite after_dir. unfold tr, tr_eff, transfer_time. destruct (_ && _); auto. unfold dir; destruct fwd; lia. }
    rewrite Etr in *. pose proof (tr_eff_nonneg i). pose proof (Arr_lower _ _ _ Ha).
    exists j. split; auto. left.
    destruct (clamp_cases P (after P (s_tmp s i) (tr_eff i))) as [-> | ?]; [rewrite o_after; lia| |contradiction].
    now constructor.
  Qed.

  Lemma update_footpaths_sinv k s : sinv k s -> sinv k (update_footpaths P k s).
  Proof.
    intros H. unfold update_footpaths. apply fold_left_inv; auto. clear s H. intros s i _ H.
    destruct (s_prev s i); auto.
    apply fold_left_inv; auto. clear s H. intros s [l' d0] Hin H. cbn [fst snd].
    destruct (s_tmp s i =? kInvalid) eqn:E; auto. apply Z.eqb_neq in E.
    destruct (si_tmp _ _ H _ E) as (j & Hj & Ha).
    assert (Hw : walk P i l' (p_adjust P d0)) by (exists d0; auto).
    pose proof (walk_nonneg _ _ _ Hw). pose proof (Arr_lower _ _ _ Ha).
    apply transfer_to_sinv; auto. intros Hne. rewrite <- after_dir in *.
    exists j. split; auto. left.
    destruct (clamp_cases P (after P (s_tmp s i) (p_adjust P d0))) as [-> | ?]; [rewrite o_after; lia| |contradiction].
    econstructor; eauto.
  Qed.

  Lemma clamp_range x : o (clamp16 x) <= OI.
  Proof. rewrite o_clamp. pose proof (OL_lt_OI P). lia. Qed.

  Lemma update_intermodal_sinv k s : sinv k s -> sinv k (update_intermodal_footpaths P k s).
  Proof.
    intros H. unfold update_intermodal_footpaths. destruct (p_dist_to_end P) as [off|] eqn:Eoff; auto.
    apply fold_left_inv; auto. clear s H. intros s i _ H.
    destruct (s_prev s i); auto. destruct (off i) as [d|] eqn:Ed; auto.
    destruct (s_tmp s i =? kInvalid) eqn:E; auto. apply Z.eqb_neq in E.
    destruct (is_better_or_eq P _ _); auto.
    destruct (si_tmp _ _ H _ E) as (j & Hj & Ha). pose proof (Arr_lower _ _ _ Ha).
    assert (0 <= d) by (destruct Hdur as (_ & _ & _ & Hw); eapply Hw; eauto).
    destruct H as [I1 I2 I3 I4 I5].
    assert (Hl : clamp16 (s_tmp s i + dir P d) <> kInvalid -> exists i0, (i0 <= k)%nat /\ Lbl i0 (p_end P) (clamp16 (s_tmp s i + dir P d))).
    { intros Hne. rewrite <- after_dir in *. exists j. split; auto. right.
      destruct (clamp_cases P (after P (s_tmp s i) d)) as [-> | ?]; [rewrite o_after; lia| |contradiction].
      exists off, i, (s_tmp s i), d. auto. }
    split; cbn [s_rt s_tmp s_best]; auto.
    - intros j0 l. destruct (upd_cases (s_rt s) k j0 (upd (s_rt s k) (p_end P) (clamp16 (s_tmp s i + dir P d)))) as [[<- ->]|[_ ->]]; auto.
      destruct (upd_cases (s_rt s k) (p_end P) l (clamp16 (s_tmp s i + dir P d))) as [[<- ->]|[_ ->]]; auto using clamp_range.
    - intros l. destruct (upd_cases (s_best s) (p_end P) l (clamp16 (s_tmp s i + dir P d))) as [[<- ->]|[_ ->]]; auto using clamp_range.
    - intros j0 l. destruct (upd_cases (s_rt s) k j0 (upd (s_rt s k) (p_end P) (clamp16 (s_tmp s i + dir P d)))) as [[<- ->]|[_ ->]]; auto.
      destruct (upd_cases (s_rt s k) (p_end P) l (clamp16 (s_tmp s i + dir P d))) as [[<- ->]|[_ ->]]; auto.
  Qed.

  (** ** Scanning one route *)
  Lemma can_start_on st : can_start fwd (is_wheelchair P) st = get_on_allowed P st.
  Proof. unfold can_start, get_on_allowed, wheelchair, is_wheelchair. destruct fwd, (p_require P 2); auto. Qed.
  Lemma can_finish_off st : can_finish fwd (is_wheelchair P) st = get_off_allowed P st.
  Proof. unfold can_finish, get_off_allowed, wheelchair, is_wheelchair. destruct fwd, (p_require P 2); auto. Qed.

  Lemma stop_idx_lt r i : (i < length (r_stops r))%nat -> (stop_idx_of P r i < length (r_stops r))%nat.
  Proof. unfold stop_idx_of. destruct fwd; lia. Qed.
  Lemma stop_idx_order r p i : (p < i < length (r_stops r))%nat ->
    if fwd then (stop_idx_of P r p < stop_idx_of P r i)%nat else (stop_idx_of P r i < stop_idx_of P r p)%nat.
  Proof. unfold stop_idx_of. destruct fwd; lia. Qed.
  Lemma stop_at_nth r s : (s < length (r_stops r))%nat -> nth_error (r_stops r) s = Some (stop_at r s).
  Proof. intros. unfold stop_at. now apply nth_error_nth'. Qed.

  Lemma sections_spec r p i f sec :
    route_allowed P r = true -> (p < i < length (r_stops r))%nat ->
    (forall q, (p < q <= i)%nat -> section_ok P r (section_before P r q) = true) ->
    (f < 4)%nat -> p_require P f = true ->
    (Nat.min (stop_idx_of P r p) (stop_idx_of P r i) <= sec < Nat.max (stop_idx_of P r p) (stop_idx_of P r i))%nat ->
    section_has r sec f.
  Proof.
    intros Hra Hpi Hsec Hf Hreq Hb.
    unfold route_allowed in Hra. apply andb_true_iff in Hra as [_ Hra]. rewrite forallb_forall in Hra.
    assert (Hfin : In f [0%nat; 1%nat; 2%nat; 3%nat]).
    { destruct f as [|[|[|[|f]]]]; simpl; auto; lia. }
    specialize (Hra f Hfin). rewrite Hreq in Hra. simpl in Hra. unfold section_has.
    destruct (r_flag_all r f) eqn:Eall; auto. right. split; [exact Hra|].
    assert (Hq : exists q, (p < q <= i)%nat /\ section_before P r q = sec).
    { unfold section_before, stop_idx_of in *. destruct fwd.
      - exists (S sec). lia.
      - exists (length (r_stops r) - 1 - sec)%nat. lia. }
    destruct Hq as (q & Hq & <-). specialize (Hsec q Hq). unfold section_ok in Hsec.
    rewrite forallb_forall in Hsec. specialize (Hsec f Hfin). unfold section_filter in Hsec.
    rewrite Hreq, Eall in Hsec. simpl in Hsec. exact Hsec.
  Qed.

  (** What the scan knows about the vehicle it sits in: boarded at position [p < i]. *)
  Definition on_board (k : nat) (r : route) (i : nat) (x : ride) : Prop :=
    exists v p j t, nth_error (r_vehicles r) (fst x) = Some v /\ runs_on v (snd x) /\
      (p < i)%nat /\ (p < length (r_stops r))%nat /\ (S j <= k)%nat /\
      get_on_allowed P (stop_at r (stop_idx_of P r p)) = true /\
      Ready j (loc_at r (stop_idx_of P r p)) t /\
      o t <= o (bt P v (snd x) (stop_idx_of P r p)) /\
      (forall q, (p < q < i)%nat -> section_ok P r (section_before P r q) = true).

  Lemma on_board_arrive k ri r i x :
    nth_error (tt_routes tt) ri = Some r -> route_allowed P r = true -> (i < length (r_stops r))%nat ->
    on_board k r i x -> (section_ok P r (section_before P r i) = true) ->
    get_off_allowed P (stop_at r (stop_idx_of P r i)) = true ->
    time_at_stop P r x (stop_idx_of P r i) (alight_ev P) <> kInvalid ->
    exists j, (j <= k)%nat /\ Arr j (loc_at r (stop_idx_of P r i)) (time_at_stop P r x (stop_idx_of P r i) (alight_ev P)).
  Proof.
    intros Hr Hra Hi (v & p & j & t & Hv & Hrun & Hp & Hpl & Hj & Hon & Hrd & Hle & Hsec) Hsi Hoff Hne.
    destruct x as [x d]. cbn [fst snd] in *.
    rewrite (time_at_stop_eq ri r x v) in * by auto using stop_idx_lt.
    assert (Hord : o (bt P v d (stop_idx_of P r p)) <= o (at_ P v d (stop_idx_of P r i))).
    { eapply event_order; eauto using nth_error_In, stop_idx_lt. apply stop_idx_order; auto. }
    pose proof (Ready_lower _ _ _ Hrd).
    assert (Eat : event_time P v d (stop_idx_of P r i) (alight_ev P) = at_ P v d (stop_idx_of P r i)) by reflexivity.
    rewrite Eat in *.
    destruct (clamp_cases P (at_ P v d (stop_idx_of P r i))) as [E| E]; [lia| |congruence].
    rewrite E. exists (S j). split; auto.
    eapply arrived_ride; [exact Hrd|apply no_later_o; exact Hle|].
    eapply (ride_intro P _ _ _ _ ri r x v d (stop_idx_of P r p) (stop_idx_of P r i)); eauto using stop_at_nth, stop_idx_lt.
    - apply stop_idx_order; auto.
    - unfold route_allowed in Hra. apply andb_true_iff in Hra. tauto.
    - intros f sec. eapply sections_spec; eauto. intros q Hq.
      destruct (Nat.eq_dec q i) as [->|]; auto. apply Hsec. lia.
  Qed.

  Definition scan_inv (k : nat) (r : route) (i : nat) (c : scan) : Prop :=
    (forall x, sc_et c = Some x -> sc_break c = false -> on_board k r i x) /\
    (forall l, o (sc_tmp c l) <= OI) /\
    (forall l, sc_tmp c l <> kInvalid -> exists j, (j <= k)%nat /\ Arr j l (sc_tmp c l)).

  Lemma stop_not_end ri r s : nth_error (tt_routes tt) ri = Some r -> (s < length (r_stops r))%nat ->
    p_dist_to_end P <> None -> loc_at r s <> p_end P.
  Proof.
    intros Hr Hs Hd. destruct (Hend Hd) as (_ & Hne & _). eapply Hne; eauto.
    unfold stop_at. now apply nth_In.
  Qed.

  Lemma scan_stop_sinv k ri r best rtp tad pm c i :
    (1 <= k)%nat -> nth_error (tt_routes tt) ri = Some r -> route_allowed P r = true -> (i < length (r_stops r))%nat ->
    (forall l, rtp l <> kInvalid -> exists j, (S j <= k)%nat /\ Lbl j l (rtp l)) ->
    scan_inv k r i c -> scan_inv k r (S i) (scan_stop P k ri r best rtp tad pm c i).
  Proof.
    intros Hk Hr Hra Hi Hrt (Het & Hrange & Htmp). unfold scan_stop.
    destruct (sc_break c) eqn:Ebr.
    { split; [intros x _ Hb; congruence|split; auto]. }
    set (s := stop_idx_of P r i). set (l := loc_at r s).
    set (et := if negb (Nat.eqb i 0) && negb (section_ok P r (section_before P r i)) then None else sc_et c).
    assert (Het' : forall x, et = Some x -> on_board k r i x /\ section_ok P r (section_before P r i) = true /\ i <> 0%nat).
    { intros x Hx. unfold et in Hx. destruct (Nat.eqb_spec i 0) as [->|Hi0]; simpl in Hx.
      - exfalso. destruct (Het x Hx eq_refl) as (v & p & ? & ? & ? & ? & Hp & _). lia.
      - destruct (section_ok P r (section_before P r i)) eqn:Es; simpl in Hx; [|discriminate]. auto. }
    match goal with |- scan_inv _ _ _ (match ?m with _ => _ end) => destruct m as [[cb tmp] mark] eqn:Eal end.
    assert (Htmp' : (forall l, o (tmp l) <= OI) /\ (forall l, tmp l <> kInvalid -> exists j, (j <= k)%nat /\ Arr j l (tmp l))).
    { destruct et as [x|] eqn:Ee; [|injection Eal as _ <- _; auto].
      destruct (can_finish fwd (is_wheelchair P) (stop_at r s)) eqn:Ef; [|injection Eal as _ <- _; auto].
      destruct (is_better_or_eq P _ tad && _ && _) eqn:Eu; injection Eal as _ <- _; auto.
      rewrite can_finish_off in Ef. destruct (Het' x eq_refl) as (Hob & Hs & Hi0).
      assert (Hrg : o (time_at_stop P r x s (alight_ev P)) <= OI) by (unfold time_at_stop, to_delta; apply clamp_range).
      split.
      - intros l0. destruct (upd_cases (sc_tmp c) l l0 (get_best P (time_at_stop P r x s (alight_ev P)) (sc_tmp c l))) as [[<- ->]|[_ ->]]; auto.
        rewrite o_get_best. specialize (Hrange l). lia.
      - intros l0. destruct (upd_cases (sc_tmp c) l l0 (get_best P (time_at_stop P r x s (alight_ev P)) (sc_tmp c l))) as [[<- ->]|[_ ->]]; auto.
        destruct (get_best_cases P (time_at_stop P r x s (alight_ev P)) (sc_tmp c l)) as [->| ->]; auto.
        intros Hne. eapply on_board_arrive; eauto. }
    destruct Htmp' as [Hrange' Htmp'].
    assert (Hcarry : forall x, et = Some x -> on_board k r (S i) x).
    { intros x Hx. destruct (Het' x Hx) as ((v & p & j & t & Hv & Hrun & Hp & Hpl & Hj & Hon & Hrd & Hle & Hsec) & Hs & Hi0).
      exists v, p, j, t. do 8 (split; [first [assumption|lia]|]). intros q Hq.
      destruct (Nat.eq_dec q i) as [->|]; auto. apply Hsec. lia. }
    destruct (Nat.eqb i (length (r_stops r) - 1) || negb (can_start fwd (is_wheelchair P) (stop_at r s)) || negb (pm l)) eqn:Eb1.
    { split; cbn; auto. }
    apply orb_false_iff in Eb1 as [Eb1 _]. apply orb_false_iff in Eb1 as [_ Ecs]. apply negb_false_iff in Ecs.
    rewrite can_start_on in Ecs.
    destruct (negb (lb_reachable P l)).
    { split; cbn; [intros; discriminate|auto]. }
    destruct (negb (rtp l =? kInvalid) && is_better_or_eq P (rtp l) _) eqn:Eprev; [|split; cbn; auto].
    apply andb_true_iff in Eprev as [Eprev _]. apply negb_true_iff, Z.eqb_neq in Eprev.
    destruct (get_earliest_transport P ri r s l tad (rtp l)) as [[x d]|] eqn:Eget; [|split; cbn; auto].
    assert (Hnew : on_board k r (S i) (x, d)).
    { apply get_earliest_transport_sound in Eget as (v & Hv & Hrun & Hle & _); auto; [|now apply stop_idx_lt].
      destruct (Hrt l Eprev) as (j & Hj & [Hrd|(off & l0 & t0 & d0 & Hoff & El & _)]).
      - exists v, i, j, (rtp l). cbn [fst snd]. do 8 (split; [first [assumption|lia]|]). intros; lia.
      - exfalso. eapply (stop_not_end ri r s); eauto using stop_idx_lt. congruence. }
    destruct ((get_best P (get_best P cb (best l)) (tmp l) =? kInvalid) || _).
    - split; cbn; auto. intros x0 [= <-]. auto.
    - split; cbn; auto.
  Qed.

  (** *** Scanning a real-time transport *)
  (** Boarded at a time beyond the representable range: no valid label can come of it. *)
  Definition board_saturated (r : route) (i : nat) (x : ride) : Prop :=
    exists v p, nth_error (r_vehicles r) (fst x) = Some v /\ (p < i)%nat /\ (p < length (r_stops r))%nat /\
      OI <= o (bt P v (snd x) (stop_idx_of P r p)).
  Lemma saturated_arrive ri r i x :
    nth_error (tt_routes tt) ri = Some r -> (i < length (r_stops r))%nat -> board_saturated r i x ->
    time_at_stop P r x (stop_idx_of P r i) (alight_ev P) = kInvalid.
  Proof.
    intros Hr Hi (v & p & Hv & Hp & Hpl & Hs). destruct x as [x d]. cbn [fst snd] in *.
    rewrite (time_at_stop_eq ri r x v) by auto using stop_idx_lt.
    assert (Hord : o (bt P v d (stop_idx_of P r p)) <= o (at_ P v d (stop_idx_of P r i))).
    { eapply event_order; eauto using nth_error_In, stop_idx_lt. apply stop_idx_order; auto. }
    change (event_time P v d (stop_idx_of P r i) (alight_ev P)) with (at_ P v d (stop_idx_of P r i)).
    destruct (clamp_cases P (at_ P v d (stop_idx_of P r i))) as [E| E]; [pose proof (OL_lt_OI P); lia| |exact E].
    apply (o_inj P). rewrite o_kInvalid. pose proof (clamp_range (at_ P v d (stop_idx_of P r i))). rewrite E in *. lia.
  Qed.
  Lemma saturated_next r i x : board_saturated r i x -> board_saturated r (S i) x.
  Proof. intros (v & p & Hv & Hp & Hpl & Hs). exists v, p. repeat split; auto. Qed.
  (** Boarding test of the code: either the label is valid and no later than the departure, or boarding is saturated. *)
  Lemma rt_board ri r day i v rtl :
    nth_error (tt_routes tt) ri = Some r -> r_vehicles r = [v] -> (i < length (r_stops r))%nat ->
    (rtl <> kInvalid -> OL < o rtl) -> o rtl <= OI ->
    is_better_or_eq P rtl (time_at_stop P r (0%nat, day) (stop_idx_of P r i) (board_ev P)) = true ->
    board_saturated r (S i) (0%nat, day) \/ (rtl <> kInvalid /\ o rtl <= o (bt P v day (stop_idx_of P r i))).
  Proof.
    intros Hr Ev Hi Hlow Hrg Hb. apply is_better_or_eq_o in Hb.
    assert (Hv : nth_error (r_vehicles r) 0 = Some v) by (rewrite Ev; reflexivity).
    rewrite (time_at_stop_eq ri r 0 v) in Hb by auto using stop_idx_lt.
    change (event_time P v day (stop_idx_of P r i) (board_ev P)) with (bt P v day (stop_idx_of P r i)) in Hb.
    destruct (Z.le_gt_cases OI (o (bt P v day (stop_idx_of P r i)))) as [Hs|Hs].
    - left. exists v, i. cbn [fst snd]. repeat split; auto.
    - right. rewrite o_clamp in Hb. pose proof (OL_lt_OI P).
      assert (Hne : rtl <> kInvalid). { intros ->. rewrite o_kInvalid in Hb. lia. }
      split; auto. specialize (Hlow Hne). lia.
  Qed.

  Definition scan_rt_inv (k : nat) (r : route) (i : nat) (c : scan) : Prop :=
    (forall x, sc_et c = Some x -> sc_break c = false -> on_board k r i x \/ board_saturated r i x) /\
    (forall l, o (sc_tmp c l) <= OI) /\
    (forall l, sc_tmp c l <> kInvalid -> exists j, (j <= k)%nat /\ Arr j l (sc_tmp c l)).

  Lemma Lbl_lower k l t : Lbl k l t -> OL < o t.
  Proof.
    intros [H|(off & l0 & t0 & d & Hoff & _ & Ha & Hd & ->)]; [now apply Ready_lower' in H|].
    apply Arr_lower' in Ha. rewrite o_after. assert (0 <= d) by (destruct Hdur as (_ & _ & _ & Hw); eapply Hw; eauto). lia.
  Qed.

  Lemma scan_rt_stop_sinv k ri r day rtp tad pm c i :
    (1 <= k)%nat -> nth_error (tt_routes tt) ri = Some r -> r_rt r = Some day -> route_allowed P r = true -> (i < length (r_stops r))%nat ->
    (forall l, rtp l <> kInvalid -> exists j, (S j <= k)%nat /\ Lbl j l (rtp l)) -> (forall l, o (rtp l) <= OI) ->
    scan_rt_inv k r i c -> scan_rt_inv k r (S i) (scan_rt_stop P r day rtp tad pm c i).
  Proof.
    intros Hk Hr Hrtr Hra Hi Hrt Hrtg (Het & Hrange & Htmp). unfold scan_rt_stop.
    destruct (proj2 Hwf _ _ _ Hr Hrtr) as (Hday & v & Ev & Hdays).
    destruct (sc_break c) eqn:Ebr.
    { split; [intros x _ Hb; congruence|split; auto]. }
    set (s := stop_idx_of P r i). set (l := loc_at r s).
    set (et := if negb (Nat.eqb i 0) && negb (section_ok P r (section_before P r i)) then None else sc_et c).
    assert (Het' : forall x, et = Some x -> (on_board k r i x \/ board_saturated r i x) /\ section_ok P r (section_before P r i) = true /\ i <> 0%nat).
    { intros x Hx. unfold et in Hx. destruct (Nat.eqb_spec i 0) as [->|Hi0]; simpl in Hx.
      - exfalso. destruct (Het x Hx eq_refl) as [(w & p & ? & ? & ? & ? & Hp & _)|(w & p & _ & Hp & _)]; lia.
      - destruct (section_ok P r (section_before P r i)) eqn:Es; simpl in Hx; [|discriminate]. auto. }
    match goal with |- scan_rt_inv _ _ _ (match ?m with _ => _ end) => destruct m as [tmp mark] eqn:Eal end.
    assert (Htmp' : (forall l, o (tmp l) <= OI) /\ (forall l, tmp l <> kInvalid -> exists j, (j <= k)%nat /\ Arr j l (tmp l))).
    { destruct et as [x|] eqn:Ee; [|injection Eal as <- _; auto].
      destruct (negb (Nat.eqb i 0) && can_finish fwd (is_wheelchair P) (stop_at r s) && is_better_or_eq P _ tad && _ && _) eqn:Eu; injection Eal as <- _; auto.
      do 3 (apply andb_true_iff in Eu as [Eu _]). apply andb_true_iff in Eu as [_ Ef].
      rewrite can_finish_off in Ef. destruct (Het' x eq_refl) as (Hob & Hs & Hi0).
      assert (Hrg : o (time_at_stop P r x s (alight_ev P)) <= OI) by (unfold time_at_stop, to_delta; apply clamp_range).
      split.
      - intros l0. destruct (upd_cases (sc_tmp c) l l0 (get_best P (time_at_stop P r x s (alight_ev P)) (sc_tmp c l))) as [[<- ->]|[_ ->]]; auto.
        rewrite o_get_best. specialize (Hrange l). lia.
      - intros l0. destruct (upd_cases (sc_tmp c) l l0 (get_best P (time_at_stop P r x s (alight_ev P)) (sc_tmp c l))) as [[<- ->]|[_ ->]]; auto.
        destruct (get_best_cases P (time_at_stop P r x s (alight_ev P)) (sc_tmp c l)) as [->| ->]; auto.
        intros Hne. destruct Hob as [Hob|Hob]; [eapply on_board_arrive; eauto|].
        exfalso. apply Hne. eapply saturated_arrive; eauto. }
    destruct Htmp' as [Hrange' Htmp'].
    assert (Hcarry : forall x, et = Some x -> on_board k r (S i) x \/ board_saturated r (S i) x).
    { intros x Hx. destruct (Het' x Hx) as ([(w & p & j & t & Hv & Hrun & Hp & Hpl & Hj & Hon & Hrd & Hle & Hsec)|Hsat] & Hs & Hi0).
      - left. exists w, p, j, t. do 8 (split; [first [assumption|lia]|]). intros q Hq.
        destruct (Nat.eq_dec q i) as [->|]; auto. apply Hsec. lia.
      - right. now apply saturated_next. }
    destruct (negb (lb_reachable P l)).
    { split; cbn; [intros; discriminate|auto]. }
    destruct (Nat.eqb i (length (r_stops r) - 1) || negb (can_start fwd (is_wheelchair P) (stop_at r s)) || negb (pm l)) eqn:Eb1.
    { split; cbn; auto. }
    apply orb_false_iff in Eb1 as [Eb1 _]. apply orb_false_iff in Eb1 as [_ Ecs]. apply negb_false_iff in Ecs.
    rewrite can_start_on in Ecs.
    destruct (is_better_or_eq P (rtp l) _) eqn:Eprev; [|split; cbn; auto].
    split; cbn; auto. intros x [= <-] _.
    assert (Hlow : rtp l <> kInvalid -> OL < o (rtp l)).
    { intros Hne. destruct (Hrt l Hne) as (j & _ & HL). eapply Lbl_lower; eauto. }
    destruct (rt_board ri r day i v (rtp l) Hr Ev Hi Hlow (Hrtg l) Eprev) as [Hsat|[Hne Hle]]; [now right|left].
    destruct (Hrt l Hne) as (j & Hj & [Hrd|(off & l0 & t0 & d0 & Hoff & El & _)]).
    - exists v, i, j, (rtp l). cbn [fst snd].
      split; [rewrite Ev; reflexivity|]. split; [split; [exact Hday|rewrite Hdays; apply Z.eqb_refl]|].
      do 6 (split; [first [assumption|lia]|]). intros; lia.
    - exfalso. eapply (stop_not_end ri r s); eauto using stop_idx_lt. congruence.
  Qed.

  Lemma update_route_sinv k ri r s :
    (1 <= k)%nat -> nth_error (tt_routes tt) ri = Some r -> route_allowed P r = true ->
    sinv k s -> sinv k (update_route P k ri r s).
  Proof.
    intros Hk Hr Hra [H1 H2 H3 H4 H5]. unfold update_route. destruct (r_rt r) as [day|] eqn:Ert.
    { set (f := scan_rt_stop P r day (s_rt s (k - 1)) (s_tad s k) (s_prev s)).
      assert (Hinv : scan_rt_inv k r (length (r_stops r)) (fold_left f (seq 0 (length (r_stops r))) (mk_scan None (s_tmp s) (s_mark s) false))).
      { apply (fold_left_seq_inv f (fun i c => scan_rt_inv k r i c)).
        - split; cbn; [discriminate|auto].
        - intros i c Hi Hc. eapply scan_rt_stop_sinv; eauto.
          intros l Hl. destruct (H4 _ _ Hl) as (j & Hj & HL). exists j. split; [lia|auto]. }
      destruct Hinv as (_ & Hrg & Ht). split; cbn [s_rt s_tmp s_best]; auto. }
    set (f := scan_stop P k ri r (s_best s) (s_rt s (k - 1)) (s_tad s k) (s_prev s)).
    assert (Hinv : scan_inv k r (length (r_stops r)) (fold_left f (seq 0 (length (r_stops r))) (mk_scan None (s_tmp s) (s_mark s) false))).
    { apply (fold_left_seq_inv f (fun i c => scan_inv k r i c)).
      - split; cbn; [discriminate|auto].
      - intros i c Hi Hc. apply scan_stop_sinv; auto.
        intros l Hl. destruct (H4 _ _ Hl) as (j & Hj & HL). exists j. split; [lia|auto]. }
    destruct Hinv as (_ & Hrg & Ht). split; cbn [s_rt s_tmp s_best]; auto.
  Qed.

  Lemma loop_routes_sinv k rm s : (1 <= k)%nat -> sinv k s -> sinv k (loop_routes P k rm s).
  Proof.
    intros Hk H. unfold loop_routes. apply fold_left_inv; auto. clear s H. intros s ri _ H.
    destruct (nth_error (tt_routes tt) ri) as [r|] eqn:Er; auto.
    destruct (rm ri && route_allowed P r) eqn:E; auto. apply andb_true_iff in E as [_ E].
    now apply update_route_sinv.
  Qed.

  Lemma merge_best_sinv k s : sinv k s -> sinv k (merge_best P k s).
  Proof.
    intros [H1 H2 H3 H4 H5]. split; cbn [merge_best s_rt s_tmp s_best]; auto.
    intros l. destruct (Nat.ltb l (tt_n_locations tt)); auto. rewrite o_get_best. specialize (H1 k l). lia.
  Qed.
  Lemma marks_sinv k s m p : sinv k s -> sinv k (mk_state (s_tmp s) (s_best s) (s_rt s) (s_tad s) m p).
  Proof. intros [H1 H2 H3 H4 H5]. split; auto. Qed.

  Lemma round_sinv k s : (1 <= k)%nat -> sinv k s -> sinv k (fst (round P k s)).
  Proof.
    intros Hk H. unfold round.
    destruct (negb (any_marked P (merge_best P k s))); cbn [fst]; [now apply merge_best_sinv|].
    apply update_footpaths_sinv, update_intermodal_sinv, update_transfers_sinv, marks_sinv, loop_routes_sinv; auto.
    now apply marks_sinv, merge_best_sinv.
  Qed.

  Lemma rounds_sinv n k s : (1 <= k)%nat -> sinv k s -> exists k', sinv k' (rounds P n k s).
  Proof.
    revert k s; induction n as [|n IH]; intros k s Hk H; simpl; [eauto|].
    pose proof (round_sinv k s Hk H) as Hr. destruct (round P k s) as [s' go]. cbn [fst] in Hr.
    destruct go; [|eauto]. apply IH; [lia|]. apply sinv_weaken with k; auto.
  Qed.

  Lemma add_start_sinv k s l t :
    (t = kInvalid \/ St l t) -> o t <= OI -> sinv k s -> sinv k (add_start P s (l, t)).
  Proof.
    intros Hst Ht [H1 H2 H3 H4 H5]. unfold add_start. split; cbn [s_rt s_tmp s_best]; auto.
    - intros j l0. destruct (upd_cases (s_rt s) 0 j (upd (s_rt s 0%nat) l (get_best P t (s_rt s 0%nat l)))) as [[<- ->]|[_ ->]]; auto.
      destruct (upd_cases (s_rt s 0%nat) l l0 (get_best P t (s_rt s 0%nat l))) as [[<- ->]|[_ ->]]; auto.
      rewrite o_get_best. lia.
    - intros l0. destruct (upd_cases (s_best s) l l0 (get_best P t (s_best s l))) as [[<- ->]|[_ ->]]; auto.
      rewrite o_get_best. lia.
    - intros j l0. destruct (upd_cases (s_rt s) 0 j (upd (s_rt s 0%nat) l (get_best P t (s_rt s 0%nat l)))) as [[<- ->]|[_ ->]]; auto.
      destruct (upd_cases (s_rt s 0%nat) l l0 (get_best P t (s_rt s 0%nat l))) as [[<- ->]|[_ ->]]; auto.
      destruct (get_best_cases P t (s_rt s 0%nat l)) as [->| ->]; auto. intros Hne.
      exists 0%nat. split; auto. left. constructor. tauto.
  Qed.

  Lemma run_group_sinv mt s g k :
    (forall l t, In (l, t) (g_starts g) -> (t = kInvalid \/ St l t) /\ o t <= OI) ->
    sinv k s -> exists k', sinv k' (run_group P mt s g).
  Proof.
    intros Hg [H1 H2 H3 H4 H5]. unfold run_group. apply rounds_sinv; auto.
    assert (Hadd : sinv 1 (fold_left (add_start P) (g_starts g) (next_start_time P s))).
    { apply fold_left_inv.
      - unfold next_start_time. split; cbn [s_rt s_tmp s_best]; auto.
        + intros. rewrite o_kInvalid. lia.
        + intros. rewrite o_kInvalid. lia.
        + congruence.
      - intros s' [l t] Hin Hs'. destruct (Hg l t Hin). now apply add_start_sinv. }
    destruct Hadd as [A1 A2 A3 A4 A5]. unfold set_worst. split; cbn [s_rt s_tmp s_best]; auto.
  Qed.
  Lemma reset_sinv : sinv 0 (reset_arrivals P).
  Proof.
    unfold reset_arrivals. split; cbn [s_rt s_tmp s_best]; intros; rewrite ?o_kInvalid; try lia; congruence.
  Qed.
End Sound.
