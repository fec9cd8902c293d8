(** The stream of direct journeys: order, uniqueness, completeness. *)
From Coq Require Import List ZArith Bool Arith Lia Permutation Sorting.Sorted.
From Verif Require Import Base Time_Model Raptor_Model Raptor_Spec Rec_Model Rec_Spec Rec_Proofs Direct_Model Direct_Spec Direct_Proofs Direct_Stream.
From Verif Require Query_Model.
Import ListNotations.
Local Open Scope Z_scope.

Lemma sorted_app {A} (R : A -> A -> Prop) l1 l2 : StronglySorted R l1 -> StronglySorted R l2 ->
  (forall x y, In x l1 -> In y l2 -> R x y) -> StronglySorted R (l1 ++ l2).
Proof.
  induction 1 as [|x l1 H IH F]; intros H2 HX; [exact H2|]. cbn. constructor.
  - apply IH; auto. intros; apply HX; auto. now right.
  - apply Forall_app. split; [exact F|]. apply Forall_forall. intros y Hy. apply HX; auto. now left.
Qed.
Lemma sorted_map {A B} (f : A -> B) (R : A -> A -> Prop) (S : B -> B -> Prop) l :
  (forall x y, R x y -> S (f x) (f y)) -> StronglySorted R l -> StronglySorted S (map f l).
Proof.
  intros H. induction 1 as [|x l HS IH F]; [constructor|]. cbn. constructor; [exact IH|].
  apply Forall_forall. intros y Hy. apply in_map_iff in Hy. destruct Hy as (z & <- & Hz). rewrite Forall_forall in F. auto.
Qed.
Lemma seq_ssorted n k : StronglySorted lt (seq k n).
Proof. revert k. induction n as [|n IH]; intros k; [constructor|]. cbn. constructor; [apply IH|]. apply Forall_forall. intros x Hx. apply in_seq in Hx. lia. Qed.
Lemma rev_ssorted {A} (R : A -> A -> Prop) l : StronglySorted R l -> StronglySorted (fun x y => R y x) (rev l).
Proof.
  induction 1 as [|x l HS IH F]; [constructor|]. cbn. apply sorted_app; [exact IH|repeat constructor|].
  intros a b Ha [<-|[]]. rewrite Forall_forall in F. apply F. now apply in_rev.
Qed.
Definition lexlt {A B} (R : A -> A -> Prop) (S : B -> B -> Prop) (x y : A * B) : Prop := R (fst x) (fst y) \/ (fst x = fst y /\ S (snd x) (snd y)).
Lemma lex_sorted {A B} (R : A -> A -> Prop) (S : B -> B -> Prop) ds (is : list B) : StronglySorted R ds -> StronglySorted S is ->
  StronglySorted (lexlt R S) (flat_map (fun d => map (fun i => (d, i)) is) ds).
Proof.
  intros H1 H2. induction H1 as [|d ds HS IH F]; [constructor|]. cbn [flat_map]. apply sorted_app; [|exact IH|].
  - apply sorted_map with (R := S); [|exact H2]. intros x y HX. right. auto.
  - intros x y Hx Hy. apply in_map_iff in Hx. destruct Hx as (i & <- & _). apply in_flat_map in Hy. destruct Hy as (d' & Hd & Hy).
    apply in_map_iff in Hy. destruct Hy as (i' & <- & _). left. cbn. rewrite Forall_forall in F. auto.
Qed.
Lemma ssorted_nodup {A} (R : A -> A -> Prop) l : (forall x, ~ R x x) -> StronglySorted R l -> NoDup l.
Proof.
  intros HR. induction 1 as [|x l HS IH F]; constructor; [|exact IH]. intros Hin. rewrite Forall_forall in F. exact (HR _ (F _ Hin)).
Qed.

Section Order.
  Variable P : params.
  Variable L : Query_Model.locations.
  Variable Q : dquery.
  Notation fwd := (p_fwd P).
  Notation tt := (p_tt P).
  Variables day_lo day_hi : Z.
  Notation generators := (generators P L Q day_lo day_hi).
  Notation gen_of := (gen_of P L Q day_lo day_hi).

  Definition key_before : Z * nat -> Z * nat -> Prop :=
    if fwd then lexlt Z.lt lt else lexlt (fun a b => b < a) (fun i j : nat => (j < i)%nat).
  Lemma keys_sorted r day : StronglySorted key_before
    (flat_map (fun d => map (fun vi => (d, vi)) (transports_of P r)) (days_from P day_lo day_hi day)).
  Proof.
    unfold key_before, transports_of, days_from. destruct (p_fwd P).
    - apply lex_sorted; [|apply seq_ssorted]. apply sorted_map with (R := lt); [intros; lia|apply seq_ssorted].
    - apply lex_sorted; [|apply (rev_ssorted lt), seq_ssorted]. apply sorted_map with (R := lt); [intros; lia|apply seq_ssorted].
  Qed.

  Lemma lookup_dur b loc t g t' g' : lookup_access P L Q b loc t = Some g -> lookup_access P L Q b loc t' = Some g' ->
    exists d, outer_time b g = (if b then t - d else t + d) /\ outer_time b g' = (if b then t' - d else t' + d).
  Proof.
    intros H H'. destruct (lookup_access_sound _ _ _ _ _ _ _ H) as (o1 & d1 & _ & _ & _ & _ & F1 & _ & _ & G1).
    destruct (lookup_access_sound _ _ _ _ _ _ _ H') as (o2 & d2 & _ & _ & _ & _ & F2 & _ & _ & G2).
    exists d1. split; [exact F1|]. rewrite G1, <- G2. exact F2.
  Qed.

  Hypothesis Hwf : all_vehicles_wf P.

  (** What an accepted (day, transport) pair means. *)
  Lemma route_step_inv time ri r a b day vi j : In vi (transports_of P r) -> route_step P L Q time ri r a b (day, vi) = Some j ->
    exists v sd, nth_error (r_vehicles r) vi = Some v /\ runs_on v sd /\
      sd + d_days (if fwd then v_ev v a kDep else v_ev v b kArr) = day /\ direct_journey P L Q time ri r a b vi sd = Some j.
  Proof.
    intros Hvi E. assert (LT : (vi < length (r_vehicles r))%nat).
    { unfold transports_of in Hvi. destruct (p_fwd P); [|apply in_rev in Hvi]; apply in_seq in Hvi; lia. }
    unfold route_step in E. destruct (negb (is_route_active tt ri day)); [discriminate|].
    destruct (nth_error (r_vehicles r) vi) as [v|] eqn:Ev; [|apply nth_error_None in Ev; lia].
    assert (EV : vehicle_of r vi = v) by (unfold vehicle_of; now rewrite (nth_error_nth _ _ _ Ev)).
    rewrite EV in E. set (sd := day - _) in E. destruct (is_transport_active v sd) eqn:Act; [|discriminate]. cbn [negb] in E.
    exists v, sd. split; [reflexivity|]. split; [|split; [unfold sd; lia|exact E]]. unfold is_transport_active, kMaxDays in Act.
    apply andb_true_iff in Act. destruct Act as (Act & D). apply andb_true_iff in Act. destruct Act as (A1 & A2).
    split; [|exact D]. apply Z.leb_le in A1. apply Z.ltb_lt in A2. lia.
  Qed.
  Lemma key_in r day d vi : In (d, vi) (flat_map (fun d => map (fun vi => (d, vi)) (transports_of P r)) (days_from P day_lo day_hi day)) ->
    In vi (transports_of P r).
  Proof. intros H. apply in_flat_map in H. destruct H as (d' & _ & H). apply in_map_iff in H. now destruct H as (vi' & [= <- <-] & H). Qed.

  Lemma generator_sorted time ri r a b g : columns_sorted P -> fifo P -> gen_of time ri r a b g ->
    StronglySorted (fun x y => mkey P x <= mkey P y) g.
  Proof.
    intros Hcol Hfifo G. destruct (gen_stops _ _ _ _ _ _ _ _ _ _ _ G) as (st & st' & Hst & Hst' & Hab & _).
    pose proof (go_route _ _ _ _ _ _ _ _ _ _ _ G) as Hr. rewrite (go_gen _ _ _ _ _ _ _ _ _ _ _ G).
    assert (La : (a < length (r_stops r))%nat) by (apply nth_error_Some; congruence).
    assert (Lb : (b < length (r_stops r))%nat) by (apply nth_error_Some; congruence).
    destruct (r_rt r) as [day|] eqn:Er.
    { unfold rt_gen. destruct (direct_journey _ _ _ _ _ _ _ _ _ _); repeat constructor. }
    unfold route_gen. apply pick_sorted with (R := key_before); [|apply keys_sorted].
    intros [d i] [d' i'] j j' Hk Hk' K E E'.
    destruct (route_step_inv _ _ _ _ _ _ _ _ (key_in _ _ _ _ Hk) E) as (v & sd & Hv & Rv & Ed & Dj).
    destruct (route_step_inv _ _ _ _ _ _ _ _ (key_in _ _ _ _ Hk') E') as (w & sd' & Hw & Rw & Ed' & Dj').
    destruct (direct_journey_shape _ _ _ _ _ _ _ _ _ _ _ _ _ Dj Hst Hst') as (bw & aw & LB & LA & _ & E1 & E2 & _).
    destruct (direct_journey_shape _ _ _ _ _ _ _ _ _ _ _ _ _ Dj' Hst Hst') as (bw' & aw' & LB' & LA' & _ & E1' & E2' & _).
    destruct (lookup_dur _ _ _ _ _ _ LB LB') as (db & X1 & X2). destruct (lookup_dur _ _ _ _ _ _ LA LA') as (da & Y1 & Y2).
    cbn [outer_time] in *.
    rewrite (run_time_event P Hwf ri r i v) in * by auto. rewrite (run_time_event P Hwf ri r i' w) in * by auto.
    pose proof (fun e => proj1 (proj1 Hwf _ _ _ Hr (nth_error_In _ _ Hv)) a e La) as Wa.
    pose proof (fun e => proj1 (proj1 Hwf _ _ _ Hr (nth_error_In _ _ Hv)) b e Lb) as Wb.
    pose proof (fun e => proj1 (proj1 Hwf _ _ _ Hr (nth_error_In _ _ Hw)) a e La) as Wa'.
    pose proof (fun e => proj1 (proj1 Hwf _ _ _ Hr (nth_error_In _ _ Hw)) b e Lb) as Wb'.
    unfold mkey. pose proof (Hfifo ri r i v sd i' w sd') as F. pose proof (Hcol ri r) as C. unfold key_before, lexlt in K. cbn [fst snd] in K.
    unfold no_later, ahead in F. revert K F Ed Ed'. destruct (p_fwd P); intros K F Ed Ed'; cbv beta in K; cbn [fst snd] in K.
    - specialize (F a b Hr Hv Hw Rv Rw La Lb Hab). cbv zeta in F.
      specialize (Wa kDep). specialize (Wa' kDep).
      destruct F as (F & _).
      + unfold event_time. destruct K as [K|(K & K')]; [nia|]. assert (M : (i <= i')%nat) by lia. specialize (C i i' v w a kDep Hr M Hv Hw La). nia.
      + unfold event_time. intros T. destruct K as [K|(K & K')]; [exfalso; nia|lia].
      + lia.
    - specialize (F b a Hr Hv Hw Rv Rw Lb La Hab). cbv zeta in F.
      specialize (Wb kArr). specialize (Wb' kArr).
      destruct F as (_ & F).
      + unfold event_time. destruct K as [K|(K & K')]; [nia|]. assert (M : (i' <= i)%nat) by lia. specialize (C i' i w v b kArr Hr M Hw Hv Lb). nia.
      + unfold event_time. intros T. destruct K as [K|(K & K')]; [exfalso; nia|lia].
      + lia.
  Qed.

  Lemma stream_sorted time out : columns_sorted P -> fifo P -> direct_journeys P L Q day_lo day_hi time out ->
    StronglySorted (fun x y => mkey P x <= mkey P y) out.
  Proof.
    intros Hcol Hfifo M. eapply merged_sorted; [exact M|]. intros g Hg. apply generators_of in Hg. destruct Hg as (ri & r & a & b & G).
    eapply generator_sorted; eauto.
  Qed.

  (** ** Uniqueness: the ride of a journey *)
  Definition ride_id (j : list leg) : option uses := first_some (fun g => match l_uses g with Ride _ _ _ _ _ => Some (l_uses g) | _ => None end) j.
  Lemma direct_journey_id time ri r a b vi day j : direct_journey P L Q time ri r a b vi day = Some j -> ride_id j = Some (Ride ri vi day a (b + 1)).
  Proof.
    intros D. unfold direct_journey in D.
    destruct (lookup_access P L Q true _ _) as [bw|] eqn:LB; [|discriminate]. destruct (lookup_access P L Q false _ _) as [aw|]; [|discriminate].
    destruct (if p_fwd P then _ else _); [discriminate|]. injection D as <-.
    destruct (lookup_access_sound _ _ _ _ _ _ _ LB) as (o1 & d1 & _ & _ & _ & _ & _ & G & _).
    unfold ride_id, assemble_legs. destruct (zero_offset bw); [reflexivity|]. cbn [app first_some]. rewrite G. destruct (mode_of Q true); reflexivity.
  Qed.

  Lemma nodup_pick {A B C} (f : A -> option B) (k : B -> C) l : NoDup l ->
    (forall x y x' y', In x l -> In y l -> f x = Some x' -> f y = Some y' -> k x' = k y' -> x = y) -> NoDup (map k (pick f l)).
  Proof.
    intros N H. induction N as [|x l Hn N IH]; [constructor|]. cbn [pick].
    assert (IH' : NoDup (map k (pick f l))) by (apply IH; intros; eapply H; eauto; now right).
    destruct (f x) as [y|] eqn:E; [|exact IH']. cbn. constructor; [|exact IH']. intros Hin. apply in_map_iff in Hin.
    destruct Hin as (y' & Ek & Hy). apply in_pick in Hy. destruct Hy as (x' & Hx' & E'). apply Hn.
    rewrite (H x x' y y'); auto; [now left|now right].
  Qed.

  Lemma gen_nodup time ri r a b g : gen_of time ri r a b g -> NoDup (map ride_id g).
  Proof.
    intros G. rewrite (go_gen _ _ _ _ _ _ _ _ _ _ _ G). destruct (r_rt r).
    { unfold rt_gen. destruct (direct_journey _ _ _ _ _ _ _ _ _ _); repeat constructor. intros []. }
    unfold route_gen. apply nodup_pick.
    - apply ssorted_nodup with (R := key_before); [|apply keys_sorted]. intros [d i]. unfold key_before, lexlt. destruct (p_fwd P); cbn; lia.
    - intros [d i] [d' i'] j j' Hk Hk' E E' Ek.
      destruct (route_step_inv _ _ _ _ _ _ _ _ (key_in _ _ _ _ Hk) E) as (v & sd & Hv & Rv & Ed & Dj).
      destruct (route_step_inv _ _ _ _ _ _ _ _ (key_in _ _ _ _ Hk') E') as (w & sd' & Hw & Rw & Ed' & Dj').
      rewrite (direct_journey_id _ _ _ _ _ _ _ _ Dj), (direct_journey_id _ _ _ _ _ _ _ _ Dj') in Ek. injection Ek as <- <-.
      rewrite Hv in Hw. injection Hw as <-. now rewrite <- Ed, <- Ed'.
  Qed.
  Lemma gen_ids time ri r a b g j : gen_of time ri r a b g -> In j g -> exists vi day, ride_id j = Some (Ride ri vi day a (b + 1)).
  Proof.
    intros G Hj. destruct (in_generator _ _ _ _ _ Hwf _ _ _ _ _ _ _ G Hj) as (vi & v & day & _ & _ & D). exists vi, day. now apply (direct_journey_id time _ r).
  Qed.

  Lemma nodup_concat_map {A C} (k : A -> C) (gs : list (list A)) : (forall g, In g gs -> NoDup (map k g)) ->
    ForallOrdPairs (fun g g' => forall x y, In x g -> In y g' -> k x <> k y) gs -> NoDup (map k (concat gs)).
  Proof.
    intros H F. induction F as [|g gs Fg F IH]; [constructor|]. cbn [concat]. rewrite map_app.
    assert (N1 : NoDup (map k g)) by (apply H; now left). assert (N2 : NoDup (map k (concat gs))) by (apply IH; intros; apply H; now right).
    revert N1. assert (D : forall x y, In x g -> In y (concat gs) -> k x <> k y).
    { intros x y Hx Hy. apply in_concat in Hy. destruct Hy as (g' & Hg' & Hy). rewrite Forall_forall in Fg. eapply Fg; eauto. }
    clear Fg H. induction g as [|x g IHg]; intros N1; [exact N2|]. cbn in *. inversion N1; subst. constructor.
    - rewrite in_app_iff. intros [HX|HX]; [auto|]. apply in_map_iff in HX. destruct HX as (y & E & Hy). apply (D x y); auto.
    - apply IHg; auto.
  Qed.
  Lemma ordpairs_app {A} (R : A -> A -> Prop) l1 l2 : ForallOrdPairs R l1 -> ForallOrdPairs R l2 -> (forall x y, In x l1 -> In y l2 -> R x y) ->
    ForallOrdPairs R (l1 ++ l2).
  Proof.
    induction 1 as [|x l1 F H IH]; intros H2 HX; [exact H2|]. cbn. constructor.
    - apply Forall_app. split; [exact F|]. apply Forall_forall. intros y Hy. apply HX; auto. now left.
    - apply IH; auto. intros; apply HX; auto. now right.
  Qed.

  Lemma ordpairs_sorted_map {A B} (R : A -> A -> Prop) (S : B -> B -> Prop) (f : A -> B) l :
    (forall x y, In x l -> In y l -> R x y -> S (f x) (f y)) -> StronglySorted R l -> ForallOrdPairs S (map f l).
  Proof.
    intros H HS. induction HS as [|x l HS IH F]; [constructor|]. cbn. constructor.
    - apply Forall_forall. intros y Hy. apply in_map_iff in Hy. destruct Hy as (z & <- & Hz). rewrite Forall_forall in F. apply H; auto; [now left|now right].
    - apply IH. intros; apply H; auto; now right.
  Qed.
  Lemma filter_ssorted {A} (R : A -> A -> Prop) f l : StronglySorted R l -> StronglySorted R (filter f l).
  Proof.
    induction 1 as [|x l HS IH F]; [constructor|]. cbn. destruct (f x); [|exact IH]. constructor; [exact IH|].
    apply Forall_forall. intros y Hy. apply filter_In in Hy. rewrite Forall_forall in F. now apply F.
  Qed.

  Lemma route_generators_of time ri g : In g (route_generators P L Q day_lo day_hi time (collect_locations P L Q true) (collect_locations P L Q false) ri) ->
    exists r a b, gen_of time ri r a b g.
  Proof.
    intros H. unfold route_generators in H.
    destruct (nth_error (tt_routes tt) ri) as [r|] eqn:Er; [|destruct H].
    destruct (existsb _ _ && existsb _ _ && route_allowed P r) eqn:E; [|destruct H]. apply andb_true_iff in E. destruct E as (_ & E).
    apply in_map_iff in H. destruct H as ([a b] & <- & H). apply filter_In in H. destruct H as (H & V). cbn [fst snd] in *.
    exists r, a, b. constructor; auto. now apply negb_true_iff in V.
  Qed.

  Lemma generators_disjoint time :
    ForallOrdPairs (fun g g' => forall x y, In x g -> In y g' -> ride_id x <> ride_id y) (generators time).
  Proof.
    unfold Direct_Model.generators.
    assert (G : forall n k, ForallOrdPairs (fun g g' => forall x y, In x g -> In y g' -> ride_id x <> ride_id y)
      (flat_map (route_generators P L Q day_lo day_hi time (collect_locations P L Q true) (collect_locations P L Q false)) (seq k n))).
    { induction n as [|n IH]; intros k; [constructor|]. cbn [seq flat_map]. apply ordpairs_app; [|apply IH|].
      - unfold route_generators. destruct (nth_error (tt_routes tt) k) as [r|] eqn:Er; [|constructor].
        destruct (existsb _ _ && existsb _ _ && route_allowed P r) eqn:E; [|constructor]. apply andb_true_iff in E. destruct E as (_ & E).
        apply ordpairs_sorted_map with (R := fun x y : nat * nat => (fst x < fst y)%nat).
        + intros [a b] [a' b'] H H' LT x y Hx Hy Eq. cbn [fst snd] in *. apply filter_In in H, H'. destruct H as (H & V), H' as (H' & V').
          cbn [fst snd] in *. apply negb_true_iff in V, V'.
          destruct (gen_ids time k r a b _ x (mk_gen_of P L Q day_lo day_hi time k r a b _ Er H E V eq_refl) Hx) as (vi & day & I1).
          destruct (gen_ids time k r a' b' _ y (mk_gen_of P L Q day_lo day_hi time k r a' b' _ Er H' E V' eq_refl) Hy) as (vi' & day' & I2).
          rewrite I1, I2 in Eq. injection Eq as _ _ Ea _. lia.
        + apply filter_ssorted, pairs_increase. discriminate.
      - intros g g' Hg Hg' x y Hx Hy Eq. apply in_flat_map in Hg'. destruct Hg' as (ri' & Hs & Hg'). apply in_seq in Hs.
        destruct (route_generators_of _ _ _ Hg) as (r & a & b & G1). destruct (route_generators_of _ _ _ Hg') as (r' & a' & b' & G2).
        destruct (gen_ids _ _ _ _ _ _ _ G1 Hx) as (vi & day & I1). destruct (gen_ids _ _ _ _ _ _ _ G2 Hy) as (vi' & day' & I2).
        rewrite I1, I2 in Eq. injection Eq as Er _ _ _ _. lia. }
    apply G.
  Qed.

  Lemma stream_nodup time out : direct_journeys P L Q day_lo day_hi time out -> NoDup (map ride_id out).
  Proof.
    intros M. apply merged_perm in M. eapply Permutation_NoDup; [apply Permutation_map, M|].
    apply nodup_concat_map; [|apply generators_disjoint]. intros g Hg. apply generators_of in Hg. destruct Hg as (ri & r & a & b & G). eapply gen_nodup; eauto.
  Qed.

  Lemma stream_in time out j : direct_journeys P L Q day_lo day_hi time out -> In j out -> exists ri r a b g, gen_of time ri r a b g /\ In j g.
  Proof.
    intros M Hj. apply merged_perm in M. apply (Permutation_in _ (Permutation_sym M)) in Hj. apply in_concat in Hj. destruct Hj as (g & Hg & Hj).
    apply generators_of in Hg. destruct Hg as (ri & r & a & b & G). exists ri, r, a, b, g. auto.
  Qed.

  (** ** Completeness *)
  Hypothesis Hidx : index_ok P.
  Hypothesis Hadj : forall x, 0 <= x -> 0 <= p_adjust P x.
  Hypothesis Htr : forall l, 0 <= tt_transfer_time tt l.
  Hypothesis Hfo : forall l l' x, In (l', x) (tt_footpaths_out tt l) -> 0 <= x.
  Hypothesis Hfi : forall l l' x, In (l', x) (tt_footpaths_in tt l) -> 0 <= x.
  Hypothesis OKb : offsets_ok Q true.
  Hypothesis OKa : offsets_ok Q false.

  Lemma side_fp_nonneg b l l' x : In (l', x) (side_footpaths P b l) -> 0 <= x.
  Proof. destruct b; eauto. Qed.

  Lemma generator_in time out ri r a b st st' :
    direct_journeys P L Q day_lo day_hi time out -> nth_error (tt_routes tt) ri = Some r ->
    In (a, b) (pairs_from P (collect_locations P L Q true) (collect_locations P L Q false) (r_stops r) 0 None) ->
    nth_error (r_stops r) a = Some st -> nth_error (r_stops r) b = Some st' ->
    boards P (collect_locations P L Q true) st = true -> alights P (collect_locations P L Q false) st' = true ->
    (a < b)%nat -> filters_ok P r a b ->
    incl (match r_rt r with None => route_gen P L Q day_lo day_hi time ri r a b | Some day => rt_gen P L Q time ri r a b day end) out.
  Proof.
    intros M Hr Hp Hst Hst' Hb Ha Hab (Fc & Ff) j Hj. apply (Permutation_in _ (merged_perm _ _ _ M)). apply in_concat.
    eexists. split; [|exact Hj]. unfold Direct_Model.generators. apply in_flat_map. exists ri. split.
    { apply in_seq. split; [lia|]. cbn. apply nth_error_Some. congruence. }
    unfold route_generators. rewrite Hr.
    assert (E1 : existsb (fun l => is_in (tt_location_routes tt l) ri) (collect_locations P L Q true) = true).
    { unfold boards in Hb. apply andb_true_iff in Hb. destruct Hb as (Hb & _). unfold is_in in Hb. apply existsb_exists in Hb. destruct Hb as (l & Hl & El).
      apply Nat.eqb_eq in El. subst l. apply existsb_exists. eexists. split; [exact Hl|]. unfold is_in. apply existsb_exists. exists ri. split; [|apply Nat.eqb_refl].
      apply (proj1 Hidx ri r st Hr). eapply nth_error_In; eauto. }
    assert (E2 : existsb (fun l => is_in (tt_location_routes tt l) ri) (collect_locations P L Q false) = true).
    { unfold alights in Ha. apply andb_true_iff in Ha. destruct Ha as (Ha & _). unfold is_in in Ha. apply existsb_exists in Ha. destruct Ha as (l & Hl & El).
      apply Nat.eqb_eq in El. subst l. apply existsb_exists. eexists. split; [exact Hl|]. unfold is_in. apply existsb_exists. exists ri. split; [|apply Nat.eqb_refl].
      apply (proj1 Hidx ri r st' Hr). eapply nth_error_In; eauto. }
    assert (E3 : route_allowed P r = true).
    { apply allowed_spec. split; [exact Fc|]. intros f Hf Hq. destruct (Ff f a Hf Hq) as [X|(X & _)]; [lia|left; exact X|right; exact X]. }
    rewrite E1, E2, E3. cbn [andb]. apply in_map_iff. exists (a, b). split; [reflexivity|]. apply filter_In. split; [exact Hp|]. cbn [fst snd].
    apply negb_true_iff, violates_spec. exact Ff.
  Qed.

  (** A journey with the selected pair is yielded. *)
  Lemma selected_in time out ri r a b st st' vi v day o1 d1 o2 d2 :
    direct_journeys P L Q day_lo day_hi time out -> 0 <= p_base P * 1440 + time -> nth_error (tt_routes tt) ri = Some r ->
    In (a, b) (pairs_from P (collect_locations P L Q true) (collect_locations P L Q false) (r_stops r) 0 None) ->
    nth_error (r_stops r) a = Some st -> nth_error (r_stops r) b = Some st' ->
    boards P (collect_locations P L Q true) st = true -> alights P (collect_locations P L Q false) st' = true ->
    (a < b)%nat -> filters_ok P r a b ->
    nth_error (r_vehicles r) vi = Some v -> runs_on v day ->
    access P L Q true (Z.to_nat (s_loc st)) o1 d1 -> usable Q true d1 -> access P L Q false (Z.to_nat (s_loc st')) o2 d2 -> usable Q false d2 ->
    (if fwd then time <= event_time P v day a kDep - d1 else event_time P v day b kArr + d2 <= time) ->
    (r_rt r = None -> if fwd then day + d_days (v_ev v a kDep) <= day_hi else day_lo <= day + d_days (v_ev v b kArr)) ->
    exists j, In j out /\ rides_on ri vi day a b j /\
      event_time P v day a kDep - d1 <= j_dep j /\ j_arr j <= event_time P v day b kArr + d2.
  Proof.
    intros M Ht Hr Hp Hst Hst' Hb Ha Hab HF Hv Hrun A1 U1 A2 U2 T HH.
    assert (La : (a < length (r_stops r))%nat) by (apply nth_error_Some; congruence).
    assert (Lb : (b < length (r_stops r))%nat) by (apply nth_error_Some; congruence).
    pose proof (generator_in time out ri r a b st st' M Hr Hp Hst Hst' Hb Ha Hab HF) as HI.
    destruct (lookup_access_min P L Q true (Z.to_nat (s_loc st)) OKb Hadj Htr (side_fp_nonneg true) o1 d1 (event_time P v day a kDep) A1 U1) as (bw & e1 & LB & B1 & B2 & B3).
    destruct (lookup_access_min P L Q false (Z.to_nat (s_loc st')) OKa Hadj Htr (side_fp_nonneg false) o2 d2 (event_time P v day b kArr) A2 U2) as (aw & e2 & LA & C1 & C2 & C3).
    cbn [inner_time outer_time] in *.
    assert (DJ : exists j, direct_journey P L Q time ri r a b vi day = Some j).
    { unfold direct_journey. rewrite !(run_time_event P Hwf ri r vi v) by auto.
      destruct (stop_at_nth _ _ _ Hst) as (_ & E1). destruct (stop_at_nth _ _ _ Hst') as (_ & E2). rewrite E1, E2, LB, LA.
      destruct (p_fwd P).
      - destruct (Z.ltb_spec (l_dep bw) time); [lia|]. eauto.
      - destruct (Z.ltb_spec time (l_arr aw)); [lia|]. eauto. }
    destruct DJ as (j & DJ).
    destruct (direct_journey_shape _ _ _ _ _ _ _ _ _ _ _ _ _ DJ Hst Hst') as (bw' & aw' & LB' & LA' & Ej & E1' & E2' & _).
    rewrite !(run_time_event P Hwf ri r vi v) in * by auto. rewrite LB in LB'. rewrite LA in LA'. injection LB' as <-. injection LA' as <-.
    exists j. split; [|split; [|split; lia]].
    - apply HI. destruct (r_rt r) as [day'|] eqn:Er.
      + destruct (proj2 Hwf _ _ _ Hr Er) as (_ & v' & Ev & Hdays). rewrite Ev in Hv.
        destruct vi as [|vi]; [|destruct vi; discriminate]. cbn in Hv. injection Hv as <-.
        destruct Hrun as (_ & Hrun). rewrite Hdays in Hrun. apply Z.eqb_eq in Hrun. subst day'. unfold rt_gen. rewrite DJ. now left.
      + specialize (HH eq_refl). unfold route_gen. apply in_pick.
        set (ev := if fwd then v_ev v a kDep else v_ev v b kArr).
        assert (EV : vehicle_of r vi = v) by (unfold vehicle_of; now rewrite (nth_error_nth _ _ _ Hv)).
        assert (LV : (vi < length (r_vehicles r))%nat) by (apply nth_error_Some; congruence).
        exists (day + d_days ev, vi). split.
        * apply in_flat_map. exists (day + d_days ev). split.
          -- pose proof (fun e => proj1 (proj1 Hwf _ _ _ Hr (nth_error_In _ _ Hv)) a e La) as Wa.
             pose proof (fun e => proj1 (proj1 Hwf _ _ _ Hr (nth_error_In _ _ Hv)) b e Lb) as Wb.
             unfold days_from, day_of. rewrite Z.quot_div_nonneg by lia.
             pose proof (Z.div_mod (p_base P * 1440 + time) 1440 ltac:(lia)) as DM. pose proof (Z.mod_pos_bound (p_base P * 1440 + time) 1440 ltac:(lia)) as MB.
             unfold ev. unfold event_time in T. destruct (p_fwd P).
             ++ specialize (Wa kDep). apply in_map_iff. exists (Z.to_nat (day + d_days (v_ev v a kDep) - (p_base P * 1440 + time) / 1440)).
                assert ((p_base P * 1440 + time) / 1440 <= day + d_days (v_ev v a kDep)) by nia.
                split; [lia|]. apply in_seq. lia.
             ++ specialize (Wb kArr). apply in_map_iff. exists (Z.to_nat ((p_base P * 1440 + time) / 1440 - (day + d_days (v_ev v b kArr)))).
                assert (day + d_days (v_ev v b kArr) <= (p_base P * 1440 + time) / 1440) by nia.
                split; [lia|]. apply in_seq. lia.
          -- apply in_map_iff. exists vi. split; [reflexivity|]. unfold transports_of.
             destruct (p_fwd P); [|apply in_rev; rewrite rev_involutive]; apply in_seq; lia.
        * unfold route_step. rewrite EV.
          assert (RA : is_route_active tt ri (day + d_days ev) = true).
          { assert (X : 0 <= day + d_days ev < 512 /\ tt_route_active tt ri (day + d_days ev) = true).
            { unfold ev. destruct (p_fwd P); apply (proj2 Hidx ri r v day); auto; eapply nth_error_In; eauto. }
            unfold is_route_active, kMaxDays. destruct X as (X & ->). rewrite (proj2 (Z.leb_le 0 _)), (proj2 (Z.ltb_lt _ 512)) by lia. reflexivity. }
          rewrite RA. cbn [negb]. fold ev. replace (day + d_days ev - d_days ev) with day by lia.
          assert (TA : is_transport_active v day = true).
          { destruct Hrun as (R1 & R2). unfold is_transport_active, kMaxDays. rewrite R2, (proj2 (Z.leb_le 0 _)), (proj2 (Z.ltb_lt _ 512)) by lia. reflexivity. }
          rewrite TA. cbn [negb]. exact DJ.
    - rewrite Ej. eexists. split; [unfold assemble_legs; apply in_or_app; right; now left|reflexivity].
  Qed.
End Order.
