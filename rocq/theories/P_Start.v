(** Property C29: start time generation. *)
From Coq Require Import List ZArith Lia Bool Arith Permutation.
From Verif Require Import Base Time_Model Time_Proofs Seq_Model Raptor_Model Query_Model Start_Model.
Import ListNotations.
Local Open Scope Z_scope.

(** ** Specification *)
Section Spec.
  Variable fwd wheelchair : bool.
  Variable tt : timetable.
  Variable first_day : Z.
  Variable rt_of_location : nat -> list rt_transport.

  (** A traveller may board at this stop (backward search: get off): not at the end of the trip, and the stop allows it. *)
  Definition may_board (n s : nat) (st : stop) : Prop :=
    if fwd then (S s < n)%nat /\ (if wheelchair then s_win st else s_in st) = true
    else (0 < s)%nat /\ (if wheelchair then s_wout st else s_out st) = true.
  (** Some vehicle running on one of the 512 timetable days, or a real-time vehicle, departs (arrives) at location [l] at
      time [ev] and may be boarded there. *)
  Inductive boardable (l : nat) (ev : Z) : Prop :=
  | bo_static ri r vi v day s st :
      In ri (tt_location_routes tt l) -> nth_error (tt_routes tt) ri = Some r -> nth_error (r_vehicles r) vi = Some v ->
      0 <= day < 512 -> v_days v day = true ->
      nth_error (r_stops r) s = Some st -> Z.to_nat (s_loc st) = l -> may_board (length (r_stops r)) s st ->
      ev = (first_day + day) * 1440 + (let e := v_ev v s (if fwd then kDep else kArr) in d_days e * 1440 + d_mam e) ->
      boardable l ev
  | bo_rt rt s st :
      In rt (rt_of_location l) -> nth_error (rt_stops rt) s = Some st -> Z.to_nat (s_loc st) = l ->
      may_board (length (rt_stops rt)) s st -> ev = rt_ev rt s (if fwd then kDep else kArr) -> boardable l ev.
  Definition before (t d : Z) : Z := if fwd then t - d else t + d.
  Definition later (t d : Z) : Z := if fwd then t + d else t - d.
End Spec.

(** Event times as stored in a timetable (five/eleven bit fields, 16 bit minute counts). *)
Definition events_ok (tt : timetable) : Prop :=
  forall ri r v s e, nth_error (tt_routes tt) ri = Some r -> In v (r_vehicles r) -> (s < length (r_stops r))%nat ->
    0 <= d_days (v_ev v s e) /\ 0 <= d_mam (v_ev v s e) < 1440 /\ d_days (v_ev v s e) * 1440 + d_mam (v_ev v s e) <= 32767.

Section Proofs.
  Variable fwd wheelchair : bool.
  Variable tt : timetable.
  Variable first_day : Z.
  Variable rt_of_location : nat -> list rt_transport.
  Notation before := (before fwd).
  Notation later := (later fwd).
  Notation get_duration := (get_duration fwd).
  Notation boardable := (boardable fwd wheelchair tt first_day rt_of_location).
  Hypothesis Hev : events_ok tt.

  Lemma enumerate_in {A} (l : list A) i x : In (i, x) (enumerate l) <-> nth_error l i = Some x.
  Proof.
    unfold enumerate. assert (H : forall l k, In (i, x) (combine (seq k (length l)) l) <-> (k <= i)%nat /\ nth_error l (i - k) = Some x).
    { clear l. induction l as [|y l IH]; intros k; simpl.
      - split; [tauto|]. intros [_ H]. destruct (i - k)%nat; discriminate.
      - rewrite IH. split.
        + intros [H|[H1 H2]]; [injection H as <- <-; rewrite Nat.sub_diag; split; [lia|reflexivity]|].
          split; [lia|]. replace (i - k)%nat with (S (i - S k)) by lia. exact H2.
        + intros [H1 H2]. destruct (Nat.eq_dec i k) as [->|Hn]; [left; rewrite Nat.sub_diag in H2; injection H2 as ->; reflexivity|].
          right. split; [lia|]. replace (i - k)%nat with (S (i - S k)) in H2 by lia. exact H2. }
    rewrite H. rewrite Nat.sub_0_r. split; [tauto|]. intros; split; [lia|auto].
  Qed.
  Lemma skip_may n i s : (i < n)%nat -> (skip_stop fwd wheelchair n i s = false <-> may_board fwd wheelchair n i s).
  Proof.
    intros Hi. unfold skip_stop, may_board. destruct fwd; rewrite orb_false_iff, negb_false_iff, Nat.eqb_neq; intuition lia.
  Qed.

  (** Growing the label list for location [l] and offset [o]. *)
  Section OneStop.
    Variable iv : interval.
    Variable l : nat.
    Variable o : location_offset.
    Definition good (s : list start) : Prop :=
      match s with [] => True | b :: _ => st_loc b = l \/ iv_contains iv (st_at_start b) = false end.
    Definition label_ok (e : start) : Prop :=
      st_loc e = l /\ boardable l (st_at_stop e) /\ st_at_start e = before (st_at_stop e) (get_duration (st_at_stop e) o true) /\
      iv_contains iv (st_at_start e) = true.
    Definition grow (s s' : list start) : Prop :=
      (good s -> good s') /\ incl s s' /\ (forall e, In e s' -> In e s \/ label_ok e) .
    Lemma grow_refl s : grow s s.
    Proof. split; [auto|]. split; [apply incl_refl|auto]. Qed.
    Lemma grow_trans a b c : grow a b -> grow b c -> grow a c.
    Proof.
      intros (A1 & A2 & A3) (B1 & B2 & B3). split; [auto|]. split; [eapply incl_tran; eauto|].
      intros e He. destruct (B3 e He) as [H|H]; auto.
    Qed.
    Lemma grow_fold {A} (f : list start -> A -> list start) xs :
      (forall s x, In x xs -> grow s (f s x)) -> forall s, grow s (fold_left f xs s).
    Proof.
      induction xs as [|x xs IH]; intros H s; simpl; [apply grow_refl|].
      eapply grow_trans; [apply H; now left|]. apply IH. intros; apply H; now right.
    Qed.
    (** Covered: a label at [l] that leaves the origin at the same time and is at the stop no later. *)
    Definition covers (s : list start) (ev : Z) : Prop :=
      exists e, In e s /\ st_loc e = l /\ st_at_start e = before ev (get_duration ev o true) /\
                better_or_eq fwd (st_at_stop e) ev = true.
    Lemma covers_incl s s' ev : incl s s' -> covers s ev -> covers s' ev.
    Proof. intros H (e & He & H'). exists e. split; auto. Qed.
    Lemma covers_fold {A} (f : list start -> A -> list start) xs x ev :
      (forall s x, In x xs -> grow s (f s x)) -> In x xs -> (forall s, good s -> covers (f s x) ev) ->
      forall s, good s -> covers (fold_left f xs s) ev.
    Proof.
      induction xs as [|y xs IH]; intros H Hx Hc s Hs; [destruct Hx|]. simpl. destruct Hx as [->|Hx].
      - eapply covers_incl; [|apply Hc; exact Hs]. apply (grow_fold f xs); intros; apply H; now right.
      - apply IH; auto; [intros; apply H; now right|]. apply (proj1 (H s y ltac:(now left))). exact Hs.
    Qed.

    Lemma try_add_grow ev s : boardable l ev -> grow s (try_add fwd iv o l ev s).
    Proof.
      intros Hb. unfold try_add. destruct (_ =? fp_max_duration); [apply grow_refl|].
      set (t := if fwd then _ else _). destruct (iv_contains iv t) eqn:E; cbn [negb]; [|apply grow_refl].
      destruct (match s with [] => _ | _ => _ end); [apply grow_refl|].
      split; [intros _; left; reflexivity|]. split; [apply incl_tl, incl_refl|].
      intros e [<-|He]; auto. right. unfold label_ok. cbn [st_loc st_at_stop st_at_start]. auto.
    Qed.
    Lemma try_add_covers ev s : good s -> get_duration ev o true <> 511 ->
      iv_contains iv (before ev (get_duration ev o true)) = true -> covers (try_add fwd iv o l ev s) ev.
    Proof.
      intros Hg Hd Hc. unfold try_add. change fp_max_duration with 511.
      destruct (Z.eqb_spec (get_duration ev o true) 511) as [E|E]; [tauto|].
      change (if fwd then ev - get_duration ev o true else ev + get_duration ev o true) with (before ev (get_duration ev o true)).
      rewrite Hc. cbn [negb]. destruct s as [|b s].
      - exists (mk_start (before ev (get_duration ev o true)) ev l). cbn. split; [auto|]. split; [auto|]. split; [auto|].
        unfold better_or_eq. destruct fwd; apply Z.leb_refl.
      - destruct ((st_at_start b =? before ev (get_duration ev o true)) && better_or_eq fwd (st_at_stop b) ev) eqn:E2.
        + apply andb_true_iff in E2. destruct E2 as [E2 E3]. apply Z.eqb_eq in E2. exists b. split; [now left|].
          destruct Hg as [Hg|Hg]; [auto|]. rewrite E2, Hc in Hg. discriminate.
        + exists (mk_start (before ev (get_duration ev o true)) ev l). cbn [st_loc st_at_start st_at_stop]. split; [now left|]. split; [auto|]. split; [auto|].
          unfold better_or_eq. destruct fwd; apply Z.leb_refl.
    Qed.

    (** Event time arithmetic. *)
    Lemma event_split ri r v s : nth_error (tt_routes tt) ri = Some r -> In v (r_vehicles r) -> (s < length (r_stops r))%nat ->
      let e := v_ev v s (start_ev fwd) in
      to_u16 (Z.quot (delta_count e) 1440) = d_days e /\ Z.rem (delta_count e) 1440 = d_mam e.
    Proof.
      intros Hr Hv Hs e. destruct (Hev ri r v s (start_ev fwd) Hr Hv Hs) as (H1 & H2 & H3). fold e in H1, H2, H3.
      assert (E : delta_count e = d_days e * 1440 + d_mam e).
      { unfold delta_count, to_i16. rewrite Z.mod_small; lia. }
      rewrite E. rewrite Z.quot_div_nonneg, Z.rem_mod_nonneg by lia.
      replace (d_days e * 1440 + d_mam e) with (d_mam e + d_days e * 1440) by lia.
      rewrite Z.div_add, Z.mod_add, Z.div_small, Z.mod_small by lia. split; [|reflexivity].
      unfold to_u16. apply Z.mod_small. lia.
    Qed.
    Lemma static_event ri r vi v s st : In ri (tt_location_routes tt l) -> nth_error (tt_routes tt) ri = Some r ->
      nth_error (r_vehicles r) vi = Some v -> nth_error (r_stops r) s = Some st -> Z.to_nat (s_loc st) = l ->
      may_board fwd wheelchair (length (r_stops r)) s st ->
      forall day, is_transport_active v (day - d_days (v_ev v s (start_ev fwd))) = true ->
      boardable l (tt_to_unixtime first_day day (d_mam (v_ev v s (start_ev fwd)))).
    Proof.
      intros Hi Hr Hv Hs Hl Hm day Ha. unfold is_transport_active, kMaxDays in Ha.
      apply andb_true_iff in Ha. destruct Ha as [Ha H3]. apply andb_true_iff in Ha. destruct Ha as [H1 H2].
      eapply bo_static; eauto; [lia|]. unfold tt_to_unixtime. fold (start_ev fwd). cbv zeta. lia.
    Qed.
    Lemma add_days_grow ri r vi v s st ivs days : In ri (tt_location_routes tt l) -> nth_error (tt_routes tt) ri = Some r ->
      nth_error (r_vehicles r) vi = Some v -> nth_error (r_stops r) s = Some st -> Z.to_nat (s_loc st) = l ->
      may_board fwd wheelchair (length (r_stops r)) s st ->
      forall acc, grow acc (add_days fwd first_day v s iv ivs o l days acc).
    Proof.
      intros Hi Hr Hv Hs Hl Hm acc. unfold add_days.
      destruct (event_split ri r v s Hr (nth_error_In _ _ Hv)) as [E1 E2]; [apply nth_error_Some; congruence|].
      rewrite E1, E2. apply grow_fold. intros a day _.
      destruct (is_transport_active v _) eqn:Ea; cbn [andb]; [|apply grow_refl].
      destruct (iv_contains ivs _); [|apply grow_refl]. apply try_add_grow.
      eapply static_event; eauto.
    Qed.
    Lemma day_range_in a b d : In d (day_range a b) <-> a <= d <= b.
    Proof.
      unfold day_range. rewrite in_map_iff. split.
      - intros (i & <- & Hi). apply in_seq in Hi. lia.
      - intros H. exists (Z.to_nat (d - a)). split; [lia|]. apply in_seq. lia.
    Qed.

    Variable max_off : Z.
    Let ivs := if fwd then mk_iv (iv_from iv) (iv_to iv + max_off) else mk_iv (iv_from iv - max_off) (iv_to iv).

    Lemma stop_fold_grow ri r acc : In ri (tt_location_routes tt l) -> nth_error (tt_routes tt) ri = Some r ->
      grow acc (fold_left (fun starts (is : nat * stop) =>
              if negb (Nat.eqb (Z.to_nat (s_loc (snd is))) l) || skip_stop fwd wheelchair (length (r_stops r)) (fst is) (snd is) then starts
              else add_start_times_at_stop fwd first_day r (fst is) l iv ivs o starts) (enumerate (r_stops r)) acc).
    Proof.
      intros Hi Hr. apply grow_fold. intros a [s st] Hin. cbn [fst snd]. apply enumerate_in in Hin.
      destruct (Nat.eqb_spec (Z.to_nat (s_loc st)) l) as [El|]; cbn [negb orb]; [|apply grow_refl].
      destruct (skip_stop _ _ _ _ _) eqn:Esk; [apply grow_refl|].
      apply skip_may in Esk; [|apply nth_error_Some; congruence].
      unfold add_start_times_at_stop. apply grow_fold. intros b v Hv. apply In_nth_error in Hv. destruct Hv as (vi & Hv).
      eapply add_days_grow; eauto.
    Qed.
    Lemma static_grow acc : grow acc (static_starts fwd wheelchair tt first_day iv l o max_off acc).
    Proof.
      unfold static_starts. fold ivs. apply grow_fold. intros a ri Hri.
      destruct (nth_error (tt_routes tt) ri) as [r|] eqn:Er; [|apply grow_refl]. now apply stop_fold_grow with (ri := ri).
    Qed.
    Lemma rt_grow acc : grow acc (rt_starts fwd wheelchair rt_of_location iv l o acc).
    Proof.
      unfold rt_starts. apply grow_fold. intros a rt Hrt. apply grow_fold. intros b [s st] Hin. apply enumerate_in in Hin.
      cbn [fst snd]. destruct (Nat.eqb_spec (Z.to_nat (s_loc st)) l) as [El|]; cbn [negb orb]; [|apply grow_refl].
      destruct (skip_stop _ _ _ _ _) eqn:Esk; [apply grow_refl|].
      apply skip_may in Esk; [|apply nth_error_Some; congruence].
      set (t := if fwd then _ else _). destruct (iv_contains iv t) eqn:E; [|apply grow_refl].
      split; [intros _; left; reflexivity|]. split; [apply incl_tl, incl_refl|].
      intros e [<-|He]; auto. right. unfold label_ok. cbn [st_loc st_at_stop st_at_start].
      split; [auto|]. split; [eapply bo_rt; eauto|]. split; auto.
    Qed.

    (** Completeness for one stop. *)
    Hypothesis Hlo : first_day * 1440 <= (if fwd then iv_from iv else iv_from iv - max_off).
    Hypothesis Hhi : (if fwd then iv_to iv + max_off else iv_to iv) < (first_day + 65536) * 1440.
    Lemma static_complete ev acc : good acc ->
      0 <= get_duration ev o true <= max_off -> get_duration ev o true <> 511 ->
      iv_contains iv (before ev (get_duration ev o true)) = true ->
      (forall rt s st, In rt (rt_of_location l) -> nth_error (rt_stops rt) s = Some st -> Z.to_nat (s_loc st) = l ->
          may_board fwd wheelchair (length (rt_stops rt)) s st -> ev = rt_ev rt s (start_ev fwd) -> False) \/ True ->
      (exists ri r vi v day s st, In ri (tt_location_routes tt l) /\ nth_error (tt_routes tt) ri = Some r /\
          nth_error (r_vehicles r) vi = Some v /\ 0 <= day < 512 /\ v_days v day = true /\
          nth_error (r_stops r) s = Some st /\ Z.to_nat (s_loc st) = l /\ may_board fwd wheelchair (length (r_stops r)) s st /\
          ev = (first_day + day) * 1440 + (let e := v_ev v s (start_ev fwd) in d_days e * 1440 + d_mam e)) ->
      covers (static_starts fwd wheelchair tt first_day iv l o max_off acc) ev.
    Proof.
      intros Hg Hd Hn Hc _ (ri & r & vi & v & day & s & st & Hi & Hr & Hv & Hday & Hvd & Hs & Hl & Hm & Eev).
      unfold static_starts. fold ivs.
      assert (Hsl : (s < length (r_stops r))%nat) by (apply nth_error_Some; congruence).
      destruct (Hev ri r v s (start_ev fwd) Hr (nth_error_In _ _ Hv) Hsl) as (B1 & B2 & B3).
      destruct (event_split ri r v s Hr (nth_error_In _ _ Hv) Hsl) as [E1 E2]. cbv zeta in *.
      set (e := v_ev v s (start_ev fwd)) in *.
      assert (Hin : iv_contains ivs ev = true).
      { unfold iv_contains in Hc |- *. apply andb_true_iff in Hc. destruct Hc as [C1 C2].
        unfold ivs. unfold P_Start.before in C1, C2. destruct fwd; cbn [iv_from iv_to]; lia. }
      eapply (covers_fold _ _ ri); [| exact Hi | | exact Hg].
      { intros a ri' Hri'. destruct (nth_error (tt_routes tt) ri') as [r'|] eqn:Er; [|apply grow_refl].
        eapply stop_fold_grow; eauto. }
      intros a Ha. rewrite Hr.
      eapply (covers_fold _ _ (s, st)); [| apply enumerate_in; exact Hs | | exact Ha].
      { intros b [s' st'] Hin'. cbn [fst snd]. apply enumerate_in in Hin'.
        destruct (Nat.eqb_spec (Z.to_nat (s_loc st')) l) as [El|]; cbn [negb orb]; [|apply grow_refl].
        destruct (skip_stop _ _ _ s' _) eqn:Esk; [apply grow_refl|].
        apply skip_may in Esk; [|apply nth_error_Some; congruence].
        unfold add_start_times_at_stop. apply grow_fold. intros b' v' Hv'. apply In_nth_error in Hv'. destruct Hv' as (vi' & Hv').
        eapply add_days_grow; eauto. }
      intros b Hb. cbn [fst snd]. destruct (Nat.eqb_spec (Z.to_nat (s_loc st)) l) as [_|]; [|tauto]. cbn [negb orb].
      assert (Esk : skip_stop fwd wheelchair (length (r_stops r)) s st = false) by (apply skip_may; auto). rewrite Esk.
      unfold add_start_times_at_stop.
      eapply (covers_fold _ _ v); [| eapply nth_error_In; exact Hv | | exact Hb].
      { intros b' v' Hv'. apply In_nth_error in Hv'. destruct Hv' as (vi' & Hv'). eapply add_days_grow; eauto. }
      intros c Hgc. unfold add_days. fold e. rewrite E1, E2.
      assert (Eu : tt_to_unixtime first_day (day + d_days e) (d_mam e) = ev) by (unfold tt_to_unixtime; lia).
      eapply (covers_fold _ _ (day + d_days e)); [| | | exact Hgc].
      { intros c' d' _. destruct (is_transport_active v (d' - d_days e)) eqn:Ea; cbn [andb]; [|apply grow_refl].
        destruct (iv_contains ivs (tt_to_unixtime first_day d' (d_mam e))); [|apply grow_refl]. apply try_add_grow. eapply static_event; eauto. }
      { apply day_range_in. unfold tt_day_idx_mam. cbn [fst].
        assert (Hb1 : first_day * 1440 <= iv_from ivs) by (unfold ivs; destruct fwd; cbn [iv_from]; exact Hlo).
        assert (Hb2 : iv_to ivs < (first_day + 65536) * 1440) by (unfold ivs; destruct fwd; cbn [iv_to]; exact Hhi).
        unfold iv_contains in Hin. apply andb_true_iff in Hin. destruct Hin as [C1 C2]. apply Z.leb_le in C1. apply Z.ltb_lt in C2.
        rewrite !Z.quot_div_nonneg by lia.
        unfold to_u16. rewrite !Z.mod_small.
        - split; [apply Z.lt_succ_r, Z.div_lt_upper_bound; lia|apply Z.div_le_lower_bound; lia].
        - split; [apply Z.div_pos; lia|apply Z.div_lt_upper_bound; lia].
        - split; [apply Z.div_pos; lia|apply Z.div_lt_upper_bound; lia]. }
      intros c' Hgc'. rewrite Eu, Hin.
      assert (Ea : is_transport_active v (day + d_days e - d_days e) = true).
      { unfold is_transport_active, kMaxDays. replace (day + d_days e - d_days e) with day by lia. rewrite Hvd, andb_true_r.
        apply andb_true_iff. split; [apply Z.leb_le; lia|apply Z.ltb_lt; lia]. }
      rewrite Ea. cbn [andb]. apply try_add_covers; auto.
    Qed.
    Lemma rt_complete ev acc : good acc ->
      iv_contains iv (before ev (get_duration ev o true)) = true ->
      (exists rt s st, In rt (rt_of_location l) /\ nth_error (rt_stops rt) s = Some st /\ Z.to_nat (s_loc st) = l /\
          may_board fwd wheelchair (length (rt_stops rt)) s st /\ ev = rt_ev rt s (start_ev fwd)) ->
      covers (rt_starts fwd wheelchair rt_of_location iv l o acc) ev.
    Proof.
      intros Hg Hc (rt & s & st & Hrt & Hs & Hl & Hm & Eev). unfold rt_starts.
      assert (Hstep : forall rt acc is, In rt (rt_of_location l) -> In is (enumerate (rt_stops rt)) -> grow acc
         (if negb (Nat.eqb (Z.to_nat (s_loc (snd is))) l) || skip_stop fwd wheelchair (length (rt_stops rt)) (fst is) (snd is) then acc
          else (let ev_time := rt_ev rt (fst is) (start_ev fwd) in
            let d := get_duration ev_time o true in
            let at_start := if fwd then ev_time - d else ev_time + d in
            if iv_contains iv at_start then mk_start at_start ev_time l :: acc else acc))).
      { intros rt' b [s' st'] Hr Hin. apply enumerate_in in Hin.
        cbn [fst snd]. destruct (Nat.eqb_spec (Z.to_nat (s_loc st')) l) as [El|]; cbn [negb orb]; [|apply grow_refl].
        destruct (skip_stop _ _ _ s' _) eqn:Esk; [apply grow_refl|].
        apply skip_may in Esk; [|apply nth_error_Some; congruence]. cbv zeta.
        set (t := if fwd then _ else _). destruct (iv_contains iv t) eqn:E; [|apply grow_refl].
        split; [intros _; left; reflexivity|]. split; [apply incl_tl, incl_refl|].
        intros e [<-|He]; auto. right. unfold label_ok. cbn [st_loc st_at_stop st_at_start].
        split; [auto|]. split; [eapply bo_rt; eauto|]. split; auto. }
      eapply (covers_fold _ _ rt); [| exact Hrt | | exact Hg].
      { intros a rt' Hrt'. apply grow_fold. intros b is Hin. now apply Hstep. }
      intros a Ha. eapply (covers_fold _ _ (s, st)); [| apply enumerate_in; exact Hs | | exact Ha].
      { intros b is Hin. now apply Hstep. }
      intros b Hb. cbn [fst snd]. destruct (Nat.eqb_spec (Z.to_nat (s_loc st)) l) as [_|]; [|tauto]. cbn [negb orb].
      assert (Esk : skip_stop fwd wheelchair (length (rt_stops rt)) s st = false) by (apply skip_may; auto; apply nth_error_Some; congruence).
      rewrite Esk, <- Eev. change (if fwd then ev - get_duration ev o true else ev + get_duration ev o true) with (before ev (get_duration ev o true)).
      rewrite Hc. exists (mk_start (before ev (get_duration ev o true)) ev l). cbn [st_loc st_at_start st_at_stop].
      split; [now left|]. split; [auto|]. split; [auto|]. unfold better_or_eq. destruct fwd; apply Z.leb_refl.
    Qed.
  End OneStop.

  Definition ontrip_ok (iv : interval) (l : nat) (o : location_offset) (e : start) : Prop :=
    st_loc e = l /\ st_at_start e = (if fwd then iv_to iv else iv_from iv - 1) /\
    get_duration (st_at_start e) o false <> 511 /\
    st_at_stop e = later (st_at_start e) (get_duration (st_at_start e) o false).

  Lemma add_starts_sound iv l o mx add acc e :
    In e (add_starts_in_interval fwd wheelchair tt first_day rt_of_location iv l o mx add acc) ->
    In e acc \/ label_ok iv l o e \/ (add = true /\ ontrip_ok iv l o e).
  Proof.
    unfold add_starts_in_interval. set (s1 := rt_starts _ _ _ _ _ _ _).
    assert (G : grow iv l o acc s1) by (eapply grow_trans; [apply static_grow; exact Hev|apply rt_grow]).
    assert (H1 : In e s1 -> In e acc \/ label_ok iv l o e) by (intros H; now apply G).
    destruct add; [|intros H; apply H1 in H; tauto].
    unfold ontrip_start. destruct (Z.eqb_spec (get_duration (if fwd then iv_to iv else iv_from iv - 1) o false) fp_max_duration) as [E|E].
    - intros H; apply H1 in H; tauto.
    - intros [<-|H]; [|apply H1 in H; tauto]. right. right. split; auto. unfold ontrip_ok. cbn [st_loc st_at_start st_at_stop].
      split; [auto|]. split; [auto|]. split; [exact E|]. unfold P_Start.later. destruct fwd; reflexivity.
  Qed.
  Lemma add_starts_incl iv l o mx add acc :
    incl acc (add_starts_in_interval fwd wheelchair tt first_day rt_of_location iv l o mx add acc).
  Proof.
    unfold add_starts_in_interval. set (s1 := rt_starts _ _ _ _ _ _ _).
    assert (G : grow iv l o acc s1) by (eapply grow_trans; [apply static_grow; exact Hev|apply rt_grow]).
    destruct add; [|apply G]. unfold ontrip_start. destruct (_ =? _); [apply G|]. eapply incl_tran; [apply G|apply incl_tl, incl_refl].
  Qed.
  (** After an on-trip label the list is good for every location. *)
  Lemma ontrip_good iv l o mx acc l' :
    get_duration (if fwd then iv_to iv else iv_from iv - 1) o false <> 511 ->
    good iv l' (add_starts_in_interval fwd wheelchair tt first_day rt_of_location iv l o mx true acc).
  Proof.
    intros Hd. unfold add_starts_in_interval, ontrip_start.
    destruct (Z.eqb_spec (get_duration (if fwd then iv_to iv else iv_from iv - 1) o false) fp_max_duration) as [E|E]; [tauto|].
    right. cbn [st_at_start]. unfold iv_contains. destruct fwd; apply andb_false_iff; [right|left]; lia.
  Qed.
  Lemma add_starts_complete iv l o mx add acc ev :
    first_day * 1440 <= (if fwd then iv_from iv else iv_from iv - mx) ->
    (if fwd then iv_to iv + mx else iv_to iv) < (first_day + 65536) * 1440 ->
    good iv l acc -> boardable l ev ->
    0 <= get_duration ev o true <= mx -> get_duration ev o true <> 511 ->
    iv_contains iv (before ev (get_duration ev o true)) = true ->
    covers l o (add_starts_in_interval fwd wheelchair tt first_day rt_of_location iv l o mx add acc) ev.
  Proof.
    intros Hlo Hhi Hg Hb Hd Hn Hc. unfold add_starts_in_interval.
    set (s0 := static_starts _ _ _ _ _ _ _ _ _). set (s1 := rt_starts _ _ _ _ _ _ s0).
    assert (G0 : grow iv l o acc s0) by apply static_grow. assert (G1 : grow iv l o s0 s1) by apply rt_grow.
    assert (Hcov : covers l o s1 ev).
    { inversion Hb as [ri r vi v day s st Hi Hr Hv Hday Hvd Hs Hl Hm Eev|rt s st Hrt Hs Hl Hm Eev].
      - eapply covers_incl; [apply G1|]. apply static_complete; auto.
        exists ri, r, vi, v, day, s, st. repeat (split; [assumption|]). exact Eev.
      - apply rt_complete with (max_off := mx); auto; [now apply G0|]. exists rt, s, st. auto. }
    destruct add; auto. unfold ontrip_start. destruct (_ =? _); auto. eapply covers_incl; [|exact Hcov]. apply incl_tl, incl_refl.
  Qed.
End Proofs.

(** ** C29 *)
(** C29, soundness.  Every label generated for an interval query belongs to a start offset of the query (fixed or
    time-dependent) and is either the boarding of a vehicle that really departs from that stop - leaving the origin exactly
    the offset earlier, inside the interval - or the one label for leaving right after (backward: before) the interval. *)
Theorem C29_interval_starts_sound : forall (fwd wheelchair : bool) tt first_day rts iv shortest td mx add e,
  events_ok tt ->
  In e (get_starts fwd wheelchair tt first_day rts (Pretrip iv) shortest td mx add []) ->
  exists o, ((exists d, o = Fixed d /\ In (st_loc e, d) shortest) \/ (exists c, o = Timed c /\ In (st_loc e, c) td)) /\
    ((boardable fwd wheelchair tt first_day rts (st_loc e) (st_at_stop e) /\
      st_at_start e = before fwd (st_at_stop e) (get_duration fwd (st_at_stop e) o true) /\
      iv_from iv <= st_at_start e < iv_to iv)
     \/ (add = true /\ st_at_start e = (if fwd then iv_to iv else iv_from iv - 1) /\
         st_at_stop e = later fwd (st_at_start e) (get_duration fwd (st_at_start e) o false))).
Proof.
  intros fwd wheelchair tt first_day rts iv shortest td mx add e Hev Hin. unfold get_starts in Hin.
  set (Q := fun (e : start) => exists o, ((exists d, o = Fixed d /\ In (st_loc e, d) shortest) \/ exists c, o = Timed c /\ In (st_loc e, c) td) /\
     (label_ok fwd wheelchair tt first_day rts iv (st_loc e) o e \/ (add = true /\ ontrip_ok fwd iv (st_loc e) o e))).
  assert (HQ : Q e).
  { assert (H1 : forall e, In e (fold_left (fun starts lo => add_starts_in_interval fwd wheelchair tt first_day rts iv (fst lo) (Fixed (snd lo)) mx add starts) shortest []) -> Q e).
    { clear Hin e. assert (H : forall xs acc, incl xs shortest -> (forall e, In e acc -> Q e) ->
        forall e, In e (fold_left (fun starts lo => add_starts_in_interval fwd wheelchair tt first_day rts iv (fst lo) (Fixed (snd lo)) mx add starts) xs acc) -> Q e).
      { induction xs as [|[l d] xs IH]; intros acc Hx Ha e He; simpl in He; auto.
        eapply IH; [intros y Hy; apply Hx; now right| |exact He]. intros e' He'.
        apply add_starts_sound in He'; auto. destruct He' as [H|H]; auto.
        assert (El : st_loc e' = l) by (destruct H as [H|[_ H]]; apply H).
        exists (Fixed d). rewrite El. split; [left; exists d; split; auto; apply Hx; now left|exact H]. }
      apply H; [apply incl_refl|simpl; tauto]. }
    revert Hin. generalize (fold_left (fun starts lo => add_starts_in_interval fwd wheelchair tt first_day rts iv (fst lo) (Fixed (snd lo)) mx add starts) shortest []) H1.
    assert (H : forall xs acc, incl xs td -> (forall e, In e acc -> Q e) ->
        forall e, In e (fold_left (fun starts lo => add_starts_in_interval fwd wheelchair tt first_day rts iv (fst lo) (Timed (snd lo)) mx add starts) xs acc) -> Q e).
    { induction xs as [|[l c] xs IH]; intros acc Hx Ha e' He; simpl in He; auto.
      eapply IH; [intros y Hy; apply Hx; now right| |exact He]. intros e1 He1.
      apply add_starts_sound in He1; auto. destruct He1 as [H|H]; auto.
      assert (El : st_loc e1 = l) by (destruct H as [H|[_ H]]; apply H).
      exists (Timed c). rewrite El. split; [right; exists c; split; auto; apply Hx; now left|exact H]. }
    intros s Hs Hin. eapply H; [apply incl_refl|exact Hs|exact Hin]. }
  destruct HQ as (o & Ho & HL). exists o. split.
  - exact Ho.
  - destruct HL as [(_ & HL2 & HL3 & HL4)|(Ha & (_ & HL2 & HL3 & HL4))]; [left|right; auto].
    split; auto. split; auto. unfold iv_contains in HL4. apply andb_true_iff in HL4. lia.
Qed.

(** C29, completeness.  For the labels of an interval query's fixed offsets, in whatever order the offsets are visited: every
    vehicle that can be boarded at a start stop such that leaving the origin the offset earlier falls into the interval has
    its label - if the on-trip label is requested, as in the first search of a query and in extensions in search direction. *)
Theorem C29_interval_starts_complete : forall (fwd wheelchair : bool) tt first_day rts iv shortest td mx l d ev,
  events_ok tt ->
  first_day * 1440 <= (if fwd then iv_from iv else iv_from iv - mx) ->
  (if fwd then iv_to iv + mx else iv_to iv) < (first_day + 65536) * 1440 ->
  NoDup (map fst shortest) -> (forall l d, In (l, d) shortest -> 0 <= d <= mx /\ d <> 511) ->
  In (l, d) shortest ->
  boardable fwd wheelchair tt first_day rts l ev -> iv_from iv <= before fwd ev d < iv_to iv ->
  In (mk_start (before fwd ev d) ev l) (get_starts fwd wheelchair tt first_day rts (Pretrip iv) shortest td mx true []).
Proof.
  intros fwd wheelchair tt first_day rts iv shortest td mx l d ev Hev Hlo Hhi Hnd Hds Hin Hb Hc.
  assert (Hc' : iv_contains iv (before fwd ev d) = true) by (unfold iv_contains; lia).
  unfold get_starts. set (s1 := fold_left _ shortest []).
  assert (H1 : In (mk_start (before fwd ev d) ev l) s1).
  { unfold s1.
    assert (H : forall xs acc, incl xs shortest -> NoDup (map fst xs) -> In (l, d) xs -> (forall l', good iv l' acc) ->
      (forall e, In e acc -> ~ In (st_loc e) (map fst xs)) ->
      In (mk_start (before fwd ev d) ev l)
         (fold_left (fun starts lo => add_starts_in_interval fwd wheelchair tt first_day rts iv (fst lo) (Fixed (snd lo)) mx true starts) xs acc)).
    { induction xs as [|[l' d'] xs IH]; intros acc Hx Hn Hi Hg Hk; [destruct Hi|]. cbn [fold_left fst snd]. inversion Hn as [|? ? Hn1 Hn2]; subst. cbn [map fst] in *.
      assert (Hd' : 0 <= d' <= mx /\ d' <> 511) by (apply (Hds l' d'); apply Hx; now left).
      assert (Hgood : forall l'', good iv l'' (add_starts_in_interval fwd wheelchair tt first_day rts iv l' (Fixed d') mx true acc)).
      { intros l''. apply ontrip_good; cbn; tauto. }
      destruct Hi as [E|Hi].
      2: { apply IH; auto; [intros y Hy; apply Hx; now right|]. intros e He Hm.
           apply add_starts_sound in He; auto. destruct He as [He|He]; [apply (Hk e He); now right|].
           assert (El : st_loc e = l') by (destruct He as [He|[_ He]]; apply He). rewrite El in Hm. auto. }
      injection E as -> ->.
      assert (Hcov := add_starts_complete fwd wheelchair tt first_day rts Hev iv l (Fixed d) mx true acc ev Hlo Hhi (Hg l) Hb).
      cbn [get_duration] in Hcov. destruct Hcov as (e & He & E1 & E2 & E3); try tauto.
      assert (Hincl : incl (add_starts_in_interval fwd wheelchair tt first_day rts iv l (Fixed d) mx true acc)
        (fold_left (fun starts lo => add_starts_in_interval fwd wheelchair tt first_day rts iv (fst lo) (Fixed (snd lo)) mx true starts) xs
           (add_starts_in_interval fwd wheelchair tt first_day rts iv l (Fixed d) mx true acc))).
      { generalize (add_starts_in_interval fwd wheelchair tt first_day rts iv l (Fixed d) mx true acc). clear - Hev.
        induction xs as [|[l' d'] xs IH]; intros a; cbn [fold_left fst snd]; [apply incl_refl|]. eapply incl_tran; [|apply IH]. now apply add_starts_incl. }
      apply Hincl.
      assert (Hshape : In e acc \/ st_at_stop e = ev \/ st_at_start e = (if fwd then iv_to iv else iv_from iv - 1)).
      { apply add_starts_sound in He; auto. destruct He as [He|[He|[_ He]]]; [tauto| |].
        - right. left. destruct He as (_ & _ & He & _). cbn [get_duration] in He, E2. unfold before in *. destruct fwd; lia.
        - right. right. apply He. }
      cbn [get_duration] in E2.
      destruct Hshape as [Hshape|[Hshape|Hshape]].
      - exfalso. apply (Hk e Hshape). left. auto.
      - destruct e; cbn in *; subst; exact He.
      - exfalso. unfold iv_contains in Hc'. rewrite <- E2, Hshape in Hc'. destruct fwd; lia. }
    apply H; [apply incl_refl|exact Hnd|exact Hin|intros l'; exact I|simpl; tauto]. }
  revert H1. generalize s1. clear - Hev. induction td as [|[l' c] td IH]; intros s H; cbn [fold_left fst snd]; auto.
  apply IH. eapply add_starts_incl; eauto.
Qed.

(** Query for one point in time: exactly one label per start stop with a usable offset. *)
Theorem C29_ontrip_starts : forall (fwd wheelchair : bool) tt first_day rts t shortest td mx add e,
  In e (get_starts fwd wheelchair tt first_day rts (Ontrip t) shortest td mx add []) <->
  st_at_start e = t /\
  ((exists d, In (st_loc e, d) shortest /\ st_at_stop e = later fwd t d) \/
   (exists c d x, In (st_loc e, c) td /\ get_td_duration fwd c t = Some (d, x) /\ d <> 511 /\ st_at_stop e = later fwd t d)).
Proof.
  intros. unfold get_starts.
  assert (H1 : forall xs acc e, In e (fold_left (fun starts lo => mk_start t (if fwd then t + snd lo else t - snd lo) (fst lo) :: starts) xs acc) <->
     In e acc \/ st_at_start e = t /\ exists d, In (st_loc e, d) xs /\ st_at_stop e = later fwd t d).
  { induction xs as [|[l d] xs IH]; intros acc e'; cbn [fold_left fst snd].
    - split; auto. intros [H|[_ (d & [] & _)]]; auto.
    - rewrite IH. cbn [In]. split.
      + intros [[<-|H]|[H (d' & Hd & Hs)]]; auto.
        * right. cbn [st_at_start st_loc st_at_stop]. split; auto. exists d. split; [now left|]. unfold later. destruct fwd; reflexivity.
        * right. split; auto. exists d'. split; auto.
      + intros [H|[H (d' & [E|Hd] & Hs)]]; auto.
        * left. left. destruct e' as [a b c]. cbn [st_at_start st_loc st_at_stop] in *. injection E as -> ->. subst. reflexivity.
        * right. split; auto. exists d'. auto. }
  assert (H2 : forall xs acc e, In e (fold_left (fun starts (lo : nat * list td_footpath) =>
      let d := get_duration fwd t (Timed (snd lo)) false in
      if d =? fp_max_duration then starts else mk_start t (if fwd then t + d else t - d) (fst lo) :: starts) xs acc) <->
     In e acc \/ st_at_start e = t /\ exists c d x, In (st_loc e, c) xs /\ get_td_duration fwd c t = Some (d, x) /\ d <> 511 /\ st_at_stop e = later fwd t d).
  { induction xs as [|[l c] xs IH]; intros acc e'; cbn [fold_left fst snd].
    - split; auto. intros [H|[_ (c & d & x & [] & _)]]; auto.
    - rewrite IH. cbn [get_duration In]. change fp_max_duration with 511.
      destruct (get_td_duration fwd c t) as [[d x]|] eqn:E; [destruct (Z.eqb_spec d 511) as [Ed|Ed]|].
      + split.
        * intros [H|[H (c' & d' & x' & Hc & H')]]; auto. right. split; auto. exists c', d', x'. split; auto.
        * intros [H|[H (c' & d' & x' & [Hc|Hc] & Hg & Hn & Hs)]]; auto.
          -- injection Hc as -> ->. rewrite E in Hg. injection Hg as -> ->. tauto.
          -- right. split; auto. exists c', d', x'. auto.
      + split.
        * intros [[<-|H]|[H (c' & d' & x' & Hc & H')]]; auto.
          -- right. cbn [st_at_start st_loc st_at_stop]. split; auto. exists c, d, x. split; [now left|]. split; [exact E|]. split; [exact Ed|]. unfold later. destruct fwd; reflexivity.
          -- right. split; auto. exists c', d', x'. split; auto.
        * intros [H|[H (c' & d' & x' & [Hc|Hc] & Hg & Hn & Hs)]]; [left; now right| |].
          -- left. left. destruct e' as [a b l0]. cbn [st_at_start st_loc st_at_stop] in *. injection Hc as -> ->.
             rewrite E in Hg. injection Hg as -> ->. subst. reflexivity.
          -- right. split; auto. exists c', d', x'. auto.
      + change (511 =? 511) with true. cbv iota. split.
        * intros [H|[H (c' & d' & x' & Hc & H')]]; auto. right. split; auto. exists c', d', x'. split; auto.
        * intros [H|[H (c' & d' & x' & [Hc|Hc] & Hg & Hn & Hs)]]; auto.
          -- injection Hc as -> ->. congruence.
          -- right. split; auto. exists c', d', x'. auto. }
  rewrite H2, H1. cbn [In]. split; [intros [[[]|[Ha Hb]]|[Ha Hb]]; auto|intros [Ha [Hb|Hb]]; auto].
Qed.

(** The offset used for a start stop is the shortest one: over all start offsets of the query, the places its match mode
    allows, and optionally one footpath; plus the stay if the stop is the query's first via. *)
Theorem C29_shortest_offset : forall (fwd : bool) tt vias L mode use_fp adjust offsets,
  let m := shortest_start vias (start_candidates fwd tt L mode use_fp adjust offsets) in
  let option_ l x := exists o l0, In o offsets /\ In l0 (metas L mode (o_target o)) /\
     ((l = l0 /\ x = o_duration o) \/
      (use_fp = true /\ exists d, In (l, d) (if fwd then tt_footpaths_out tt l0 else tt_footpaths_in tt l0) /\ x = o_duration o + adjust d)) in
  NoDup (map fst m) /\
  (forall l d, In (l, d) m -> (exists x, option_ l x /\ d = x + first_via_stay vias l) /\
                              (forall x, option_ l x -> d <= x + first_via_stay vias l)) /\
  (forall l x, option_ l x -> exists d, In (l, d) m).
Proof.
  intros fwd tt vias L mode use_fp adjust offsets m option_.
  set (cands := start_candidates fwd tt L mode use_fp adjust offsets) in *.
  assert (Hopt : forall l x, In (l, x) cands <-> option_ l x).
  { intros l x. unfold cands, start_candidates, option_. rewrite in_flat_map. split.
    - intros (o & Ho & H). apply in_flat_map in H. destruct H as (l0 & Hl & [H|H]).
      + injection H as <- <-. exists o, l0. auto.
      + destruct use_fp; [|destruct H]. apply in_map_iff in H. destruct H as ([l1 d] & H & Hd). injection H as <- <-. cbn [fst snd].
        exists o, l0. split; auto. split; auto. right. split; auto. exists d. auto.
    - intros (o & l0 & Ho & Hl & H). exists o. split; auto. apply in_flat_map. exists l0. split; auto.
      destruct H as [[-> ->]|(-> & d & Hd & ->)]; [now left|]. right. apply in_map_iff. exists (l, d). auto. }
  assert (Hupd : forall m l d, NoDup (map fst m) ->
    NoDup (map fst (update_shortest m l d)) /\
    (forall l' d', In (l', d') (update_shortest m l d) ->
        (l' <> l /\ In (l', d') m) \/ (l' = l /\ ((d' = d /\ forall d0, In (l, d0) m -> d <= d0) \/ (In (l, d') m /\ d' <= d)))) /\
    (forall l', In l' (map fst (update_shortest m l d)) <-> l' = l \/ In l' (map fst m))).
  { clear. induction m as [|[l0 d0] m IH]; intros l d Hn; cbn [update_shortest map fst].
    - split; [repeat constructor; auto|]. split.
      + intros l' d' [H|[]]. injection H as <- <-. right. split; auto. left. split; auto. simpl; tauto.
      + simpl. intuition.
    - inversion Hn as [|? ? Hn1 Hn2]; subst. destruct (Nat.eqb_spec l0 l) as [->|Hne]; cbn [map fst].
      + split; [constructor; auto|]. split.
        * intros l' d' [H|H].
          -- injection H as <- <-. right. split; auto. destruct (Z.le_ge_cases d0 d).
             ++ right. rewrite Z.min_l by lia. split; [now left|lia].
             ++ left. rewrite Z.min_r by lia. split; auto. intros d1 [H1|H1]; [injection H1 as <-; lia|].
                exfalso. apply Hn1. apply (in_map fst) in H1. exact H1.
          -- left. split; [|now right]. intros ->. apply Hn1. apply (in_map fst) in H. exact H.
        * intros l'. simpl. intuition.
      + destruct (IH l d Hn2) as (I1 & I2 & I3). split; [|split].
        * constructor; auto. rewrite I3. intros [->|H]; tauto.
        * intros l' d' [H|H].
          -- injection H as <- <-. left. split; auto. now left.
          -- destruct (I2 l' d' H) as [[G1 G2]|[-> [[-> G]|[G1 G2]]]].
             ++ left. split; auto. now right.
             ++ right. split; auto. left. split; auto. intros d1 [H1|H1]; [congruence|auto].
             ++ right. split; auto. right. split; auto. now right.
        * intros l'. simpl. rewrite I3. intuition. }
  assert (Hfold : forall cs acc, NoDup (map fst acc) ->
    let m := fold_left (fun m c => update_shortest m (fst c) (snd c + first_via_stay vias (fst c))) cs acc in
    NoDup (map fst m) /\
    (forall l d, In (l, d) m -> (In (l, d) acc \/ exists x, In (l, x) cs /\ d = x + first_via_stay vias l) /\
        (forall x, In (l, x) cs -> d <= x + first_via_stay vias l) /\ (forall d0, In (l, d0) acc -> d <= d0)) /\
    (forall l, In l (map fst m) <-> In l (map fst acc) \/ In l (map fst cs))).
  { clear - Hupd. induction cs as [|[l x] cs IH]; intros acc Hn; cbn [fold_left fst snd].
    - split; auto. split; [|simpl; tauto]. intros l d H. split; auto. split; [simpl; tauto|].
      intros d0 H0. assert (d = d0); [|lia]. clear - Hn H H0. induction acc as [|[l1 d1] acc IH]; [destruct H|].
      inversion Hn as [|? ? Hn1 Hn2]; subst. cbn [fst] in *. destruct H as [H|H], H0 as [H0|H0].
      + congruence.
      + injection H as -> ->. exfalso. apply Hn1. apply (in_map fst) in H0. exact H0.
      + injection H0 as -> ->. exfalso. apply Hn1. apply (in_map fst) in H. exact H.
      + auto.
    - destruct (Hupd acc l (x + first_via_stay vias l) Hn) as (U1 & U2 & U3).
      destruct (IH (update_shortest acc l (x + first_via_stay vias l)) U1) as (F1 & F2 & F3).
      split; auto. split.
      + intros l' d' H. destruct (F2 l' d' H) as (G1 & G2 & G3).
        assert (Hacc : forall d0, In (l', d0) acc -> exists d1, In (l', d1) (update_shortest acc l (x + first_via_stay vias l)) /\ (d1 <= d0)).
        { intros d0 H0. assert (Hin : In l' (map fst (update_shortest acc l (x + first_via_stay vias l)))).
          { apply U3. right. apply (in_map fst) in H0. exact H0. }
          apply in_map_iff in Hin. destruct Hin as ([l1 d1] & E & Hin). cbn in E. subst l1. exists d1. split; auto.
          assert (Huniq : forall a b, In (l', a) acc -> In (l', b) acc -> a = b).
          { clear - Hn. intros a b. induction acc as [|[l1 d1] acc IH]; intros Ha Hb; [destruct Ha|].
            inversion Hn as [|? ? Hn1 Hn2]; subst. cbn [fst] in *. destruct Ha as [Ha|Ha], Hb as [Hb|Hb].
            - congruence.
            - injection Ha as -> ->. exfalso. apply Hn1. apply (in_map fst) in Hb. exact Hb.
            - injection Hb as -> ->. exfalso. apply Hn1. apply (in_map fst) in Ha. exact Ha.
            - auto. }
          destruct (U2 l' d1 Hin) as [[_ K]|[-> [[-> K]|[K1 K2]]]].
          - rewrite (Huniq d1 d0); auto. lia.
          - auto.
          - rewrite (Huniq d1 d0); auto. lia. }
        split; [|split].
        * destruct G1 as [G1|(x' & Hx & ->)]; [|right; exists x'; split; [now right|auto]].
          destruct (U2 l' d' G1) as [[_ K]|[-> [[-> K]|[K1 K2]]]]; auto. right. exists x. split; [now left|auto].
        * intros x' [E|Hx]; [|auto]. injection E as -> ->.
          assert (Hin : In l' (map fst (update_shortest acc l' (x' + first_via_stay vias l')))) by (apply U3; auto).
          apply in_map_iff in Hin. destruct Hin as ([l1 d1] & E & Hin). cbn in E. subst l1.
          specialize (G3 d1 Hin). destruct (U2 l' d1 Hin) as [[K _]|[_ [[-> K]|[K1 K2]]]]; [tauto|lia|lia].
        * intros d0 H0. destruct (Hacc d0 H0) as (d1 & K1 & K2). specialize (G3 d1 K1). lia.
      + intros l'. rewrite F3, U3. cbn [map In fst]. intuition. }
  destruct (Hfold cands [] ltac:(constructor)) as (M1 & M2 & M3). fold (shortest_start vias cands) in M1, M2, M3. fold m in M1, M2, M3.
  split; auto. split.
  - intros l d H. destruct (M2 l d H) as ([[]|(x & Hx & ->)] & G2 & _). split.
    + exists x. split; auto. now apply Hopt.
    + intros x' Hx'. apply G2. now apply Hopt.
  - intros l x Hx. apply Hopt in Hx. assert (Hl : In l (map fst m)) by (apply M3; right; apply (in_map fst) in Hx; exact Hx).
    apply in_map_iff in Hl. destruct Hl as ([l' d] & E & Hd). cbn in E. subst. eauto.
Qed.

(** ** Concrete timetable: departures 08:05 at stop 0 and 08:10 at stop 1, both to stop 2, on day 0. *)
Definition c29_veh (a b : Z) : vehicle :=
  mk_vehicle (fun s _ => mk_delta 0 (match s with O => a | _ => b end)) (fun d => (d =? 0) || (d =? 1)).
Definition c29_stop (l : Z) : stop := mk_stop l true true true true.
Definition c29_route (a b : Z) (v : vehicle) : route :=
  mk_route [c29_stop a; c29_stop b] 3 (fun _ => false) (fun _ => false) (fun _ _ => false) [v] None.
Definition c29_tt : timetable :=
  mk_tt 3 [c29_route 0 2 (c29_veh 485 600); c29_route 1 2 (c29_veh 490 600)]
        (fun l => match l with 0%nat => [0%nat] | 1%nat => [1%nat] | 2%nat => [0%nat; 1%nat] | _ => [] end)
        (fun _ => 0) (fun _ => []) (fun _ => []) (fun _ _ => true).
Lemma c29_events : events_ok c29_tt.
Proof.
  intros ri r v s e Hr Hv Hs. destruct ri as [|[|[|ri]]]; cbn in Hr; try discriminate; injection Hr as <-;
    cbn in Hv; destruct Hv as [<-|[]]; cbn [v_ev c29_veh d_days d_mam]; destruct s; lia.
Qed.
Lemma c29_board0 : boardable true false c29_tt 0 (fun _ => []) 0 485.
Proof. eapply (bo_static _ _ _ _ _ _ _ 0%nat _ 0%nat _ 0 0%nat); try reflexivity; [now left|lia|]. split; [cbn; lia|reflexivity]. Qed.
Lemma c29_board0' : boardable true false c29_tt 0 (fun _ => []) 0 1925.
Proof. eapply (bo_static _ _ _ _ _ _ _ 0%nat _ 0%nat _ 1 0%nat); try reflexivity; [now left|lia|]. split; [cbn; lia|reflexivity]. Qed.
Lemma c29_board1 : boardable true false c29_tt 0 (fun _ => []) 1 490.
Proof. eapply (bo_static _ _ _ _ _ _ _ 1%nat _ 0%nat _ 0 0%nat); try reflexivity; [now left|lia|]. split; [cbn; lia|reflexivity]. Qed.
Example C29_nonvacuous :
  get_starts true false c29_tt 0 (fun _ => []) (Pretrip (mk_iv 480 500)) [(0%nat, 5); (1%nat, 10)] [] 7200 true []
  = [mk_start 500 510 1; mk_start 480 490 1; mk_start 500 505 0; mk_start 480 485 0].
Proof. vm_compute. reflexivity. Qed.

(** Completeness fails for extensions against the search direction (no on-trip label in between): the duplicate test compares
    with the last label of *another* stop.  Leaving at 08:00, 5 minutes to stop 0 (departure 08:05) or 10 minutes to stop 1
    (departure 08:10): the second start is lost although stop 1 is a different stop. *)
Theorem C29_extension_loses_start_refuted :
  let shortest := [(0%nat, 5); (1%nat, 10)] in
  let iv := mk_iv 480 500 in
  boardable true false c29_tt 0 (fun _ => []) 1 490 /\ iv_from iv <= before true 490 10 < iv_to iv /\
  ~ In (mk_start (before true 490 10) 490 1) (get_starts true false c29_tt 0 (fun _ => []) (Pretrip iv) shortest [] 7200 false []).
Proof.
  cbv zeta. split; [exact c29_board1|]. split; [cbn; lia|]. vm_compute. intros [H|[]]. discriminate.
Qed.
(** An offset of exactly 511 minutes is mistaken for "not available". *)
Theorem C29_offset_511_refuted :
  let iv := mk_iv 1380 1440 in
  boardable true false c29_tt 0 (fun _ => []) 0 1925 /\ iv_from iv <= before true 1925 511 < iv_to iv /\
  get_starts true false c29_tt 0 (fun _ => []) (Pretrip iv) [(0%nat, 511)] [] 7200 true [] = [].
Proof. cbv zeta. split; [exact c29_board0'|]. split; [cbn; lia|]. vm_compute. reflexivity. Qed.
(** Real-time departures ignore that a time-dependent offset is not available: a label is generated as if the walk took 511
    minutes. *)
Theorem C29_rt_unavailable_offset_refuted :
  let rt := mk_rt [c29_stop 0; c29_stop 2] (fun s _ => match s with O => 1000 | _ => 1060 end) in
  let td := [mk_td 0%nat 0 511] in
  get_td_duration false td 1000 = None /\
  In (mk_start 489 1000 0) (get_starts true false c29_tt 0 (fun l => match l with O => [rt] | _ => [] end) (Pretrip (mk_iv 480 500)) [] [(0%nat, td)] 7200 true []).
Proof. cbv zeta. split; [reflexivity|]. vm_compute. now left. Qed.

Print Assumptions C29_interval_starts_sound.
Print Assumptions C29_interval_starts_complete.
Print Assumptions C29_ontrip_starts.
Print Assumptions C29_shortest_offset.
Print Assumptions C29_extension_loses_start_refuted.
Print Assumptions C29_offset_511_refuted.
Print Assumptions C29_rt_unavailable_offset_refuted.
