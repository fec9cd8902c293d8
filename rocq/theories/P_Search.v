(** C30: interval estimation and the interval search driver. *)
From Coq Require Import List ZArith Bool Arith Lia Sorting.Sorted.
From Verif Require Import Base Time_Model Pareto_Model Pareto_Proofs Start_Model Search_Model.
Import ListNotations.
Local Open Scope Z_scope.

(** * Specification *)
Definition inside (i o : interval) : Prop := iv_from o <= iv_from i /\ iv_to i <= iv_to o.
Definition proper (i : interval) : Prop := iv_from i <= iv_to i.
(** Times within +- 2000 years of the epoch, at most 40000 requested connections. *)
Definition iv_range (i : interval) : Prop := -1000000000 <= iv_from i /\ iv_to i <= 1000000000.
Record query_ok (q : iquery) : Prop := mk_qok {
  qo_time : proper (q_iv q) /\ iv_range (q_iv q);
  qo_ext : proper (iq_external q) /\ iv_range (iq_external q);
  qo_max : forall m, iq_max_interval q = Some m -> proper m /\ iv_range m;
  qo_conn : 0 <= iq_min_conn q <= 40000 }.
(** All limits an extended search interval has to respect. *)
Definition is_limit (q : iquery) (i : interval) : Prop :=
  i = iq_external q \/ i = data_type_max_interval q \/ iq_max_interval q = Some i.
(** The limits have a common point: the query is about a time the timetable covers. *)
Definition limits_meet (q : iquery) : Prop := exists p, forall i, is_limit q i -> iv_from i <= p <= iv_to i.

(** * Rounding *)
Lemma round_days_spec t : round_days t - 720 <= t <= round_days t + 720 /\ round_days t mod 1440 = 0.
Proof.
  unfold round_days. pose proof (Z.div_mod t 1440). pose proof (Z.mod_pos_bound t 1440).
  destruct (Z.ltb_spec (t mod 1440) 720); [|destruct (Z.ltb_spec 720 (t mod 1440)); [|destruct (Z.even (t / 1440))]];
  (split; [lia|]; apply Z.mod_mul; lia).
Qed.
Lemma round_days_mono a b : a <= b -> round_days a <= round_days b.
Proof.
  intros H. destruct (round_days_spec a) as [Ha Hma], (round_days_spec b) as [Hb Hmb].
  destruct (Z.le_gt_cases (round_days a) (round_days b)) as [|Hgt]; auto. exfalso.
  assert (E : round_days a = round_days b + 1440).
  { apply Z_div_exact_full_2 in Hma, Hmb; try lia. }
  assert (Eab : a = b) by lia. rewrite Eab in Hgt. lia.
Qed.
Lemma kmax_val : kMaxSearchIntervalSize = 21600. Proof. reflexivity. Qed.

Lemma quot2_bounds z : z - 1 <= 2 * Z.quot z 2 <= z + 1.
Proof.
  pose proof (Z.quot_rem' z 2). destruct (Z.le_ge_cases 0 z).
  - pose proof (Z.rem_bound_pos z 2 ltac:(lia) ltac:(lia)). lia.
  - pose proof (Z.rem_bound_pos (- z) 2 ltac:(lia) ltac:(lia)) as Hr. rewrite Z.rem_opp_l' in Hr. lia.
Qed.
Definition days_around (q : iquery) : Z := if iq_has_direct q then 1440 else 2880.
Lemma dtmi_spec q : proper (q_iv q) -> proper (data_type_max_interval q) /\
  iv_to (data_type_max_interval q) - iv_from (data_type_max_interval q) <= 23040 /\
  iv_from (q_iv q) - 2880 - 720 <= iv_from (data_type_max_interval q) /\ iv_to (data_type_max_interval q) <= iv_to (q_iv q) + 2880 + 720.
Proof.
  intros Hp. unfold proper in *. unfold data_type_max_interval. cbn [iv_from iv_to]. rewrite kmax_val.
  set (a := iv_from (q_iv q)) in *. set (b := iv_to (q_iv q)) in *.
  replace (2 * 1440) with 2880 by reflexivity.
  set (d := if iq_has_direct q then 1440 else 2880). assert (Hd : 1440 <= d <= 2880) by (unfold d; destruct (iq_has_direct q); lia).
  set (x := Z.quot (b - a - 21600) 2). set (y := Z.quot (b - a + 21600) 2).
  assert (Hy : b - a + 21600 - 1 <= 2 * y <= b - a + 21600).
  { unfold y. pose proof (Z.quot_rem' (b - a + 21600) 2). pose proof (Z.rem_bound_pos (b - a + 21600) 2 ltac:(lia) ltac:(lia)). lia. }
  assert (Hx : b - a - 21600 - 1 <= 2 * x <= b - a - 21600 + 1).
  { unfold x. apply quot2_bounds. }
  pose proof (round_days_spec (a - d)) as [R1 M1]. pose proof (round_days_spec (a + x)) as [R2 M2].
  pose proof (round_days_spec (b + d)) as [R3 M3]. pose proof (round_days_spec (a + y)) as [R4 M4].
  assert (H1 : round_days (a - d) <= round_days (b + d)) by (apply round_days_mono; lia).
  assert (H2 : round_days (a - d) <= round_days (a + y)) by (apply round_days_mono; lia).
  assert (H3 : round_days (a + x) <= round_days (b + d)) by (apply round_days_mono; lia).
  assert (H4 : round_days (a + x) <= round_days (a + y)) by (apply round_days_mono; lia).
  split; [lia|]. split; [|lia].
  assert (round_days (a + y) - round_days (a + x) <= 23041) by lia.
  assert (round_days (a + y) - round_days (a + x) <= 23040); [|lia].
  apply Z_div_exact_full_2 in M2, M4; lia.
Qed.

(** * Clamping *)
Lemma iv_clamp_spec i x : proper i -> iv_clamp i x = Z.max (iv_from i) (Z.min (iv_to i) x).
Proof.
  unfold proper, iv_clamp. intros H. destruct (Z.ltb_spec x (iv_from i)); [lia|]. destruct (Z.ltb_spec (iv_to i) x); lia.
Qed.
(** Composition of clamps is a clamp. *)
Definition compose (i j : interval) : interval := mk_iv (iv_clamp j (iv_from i)) (iv_clamp j (iv_to i)).
Lemma compose_spec i j : proper i -> proper j ->
  proper (compose i j) /\ forall x, iv_clamp j (iv_clamp i x) = iv_clamp (compose i j) x.
Proof.
  intros Hi Hj. assert (Hp : proper (compose i j)).
  { unfold proper, compose in *. cbn [iv_from iv_to]. rewrite !iv_clamp_spec by auto. lia. }
  split; auto. intros x. rewrite (iv_clamp_spec (compose i j)) by auto. unfold compose. cbn [iv_from iv_to].
  rewrite !iv_clamp_spec by auto. unfold proper in *. lia.
Qed.
Definition eff (q : iquery) : interval :=
  let d := compose (iq_external q) (data_type_max_interval q) in
  match iq_max_interval q with Some m => compose d m | None => d end.
Lemma clamp_iv_eff q iv : query_ok q -> clamp_iv q iv = mk_iv (iv_clamp (eff q) (iv_from iv)) (iv_clamp (eff q) (iv_to iv)).
Proof.
  intros Hq. destruct (dtmi_spec q (proj1 (qo_time q Hq))) as [Hd _]. destruct (qo_ext q Hq) as [He _].
  destruct (compose_spec _ _ He Hd) as [Hp Hc].
  unfold clamp_iv, eff. cbn [iv_from iv_to]. destruct (iq_max_interval q) as [m|] eqn:E.
  - destruct (qo_max q Hq m E) as [Hm _]. destruct (compose_spec _ _ Hp Hm) as [_ Hc2]. now rewrite !Hc, !Hc2.
  - now rewrite !Hc.
Qed.
Lemma eff_proper q : query_ok q -> proper (eff q) /\ iv_to (eff q) - iv_from (eff q) <= 23040 /\
  -1000010000 <= iv_from (eff q) /\ iv_to (eff q) <= 1000010000.
Proof.
  intros Hq. destruct (dtmi_spec q (proj1 (qo_time q Hq))) as (Hd & Hw & Hlo & Hhi). destruct (qo_ext q Hq) as [He Hre].
  destruct (compose_spec _ _ He Hd) as [Hp Hc]. unfold eff.
  assert (Hw1 : iv_to (compose (iq_external q) (data_type_max_interval q)) - iv_from (compose (iq_external q) (data_type_max_interval q)) <= 23040).
  { unfold compose. cbn [iv_from iv_to]. rewrite !iv_clamp_spec by auto. unfold proper in *. lia. }
  destruct (iq_max_interval q) as [m|] eqn:E.
  - destruct (qo_max q Hq m E) as [Hm Hrm]. destruct (compose_spec _ _ Hp Hm) as [Hp2 _]. split; auto. split.
    + unfold compose at 1 3. cbn [iv_from iv_to]. rewrite !iv_clamp_spec by auto. unfold proper in *. lia.
    + unfold iv_range in *. unfold compose at 1 3. cbn [iv_from iv_to]. rewrite !iv_clamp_spec by auto. unfold proper in *. lia.
  - split; auto. split; auto. destruct (qo_time q Hq) as [Hpt Hrt]. destruct (dtmi_spec q Hpt) as (_ & _ & H1 & H2).
    unfold iv_range in *. unfold compose. cbn [iv_from iv_to]. rewrite !iv_clamp_spec by auto. unfold proper in *.
    (* the data type interval reaches at most 2.5 days beyond the query *)
    lia.
Qed.

(** If the limits meet, the effective limit is their intersection. *)
Lemma eff_inside q i : query_ok q -> limits_meet q -> is_limit q i -> inside (eff q) i.
Proof.
  intros Hq [p Hp] Hi. destruct (dtmi_spec q (proj1 (qo_time q Hq))) as [Hd _]. destruct (qo_ext q Hq) as [He _].
  destruct (compose_spec _ _ He Hd) as [Hpc _].
  assert (P1 := Hp _ (or_introl eq_refl)). assert (P2 := Hp _ (or_intror (or_introl eq_refl))).
  unfold inside, eff. unfold proper in *.
  assert (C1 : inside (compose (iq_external q) (data_type_max_interval q)) (iq_external q) /\
               inside (compose (iq_external q) (data_type_max_interval q)) (data_type_max_interval q) /\
               iv_from (compose (iq_external q) (data_type_max_interval q)) <= p <= iv_to (compose (iq_external q) (data_type_max_interval q))).
  { unfold inside, compose. cbn [iv_from iv_to]. rewrite !iv_clamp_spec by (unfold proper; lia). lia. }
  unfold inside in C1. destruct (iq_max_interval q) as [m|] eqn:E.
  - assert (P3 := Hp m (or_intror (or_intror E))). destruct (qo_max q Hq m E) as [Hm _]. unfold proper in Hm.
    unfold compose at 1 3. cbn [iv_from iv_to]. rewrite !iv_clamp_spec by (unfold proper; lia).
    destruct Hi as [->|[->|Hi]]; [lia|lia|]. rewrite E in Hi. injection Hi as ->. lia.
  - destruct Hi as [->|[->|Hi]]; [lia|lia|]. congruence.
Qed.
Lemma eff_contains q iv : query_ok q -> proper iv -> (forall i, is_limit q i -> inside iv i) -> inside iv (eff q).
Proof.
  intros Hq Hiv H. assert (P1 := H _ (or_introl eq_refl)). assert (P2 := H _ (or_intror (or_introl eq_refl))).
  destruct (dtmi_spec q (proj1 (qo_time q Hq))) as [Hd _]. destruct (qo_ext q Hq) as [He _].
  destruct (compose_spec _ _ He Hd) as [Hpc _].
  unfold inside, eff, proper in *.
  assert (C1 : inside iv (compose (iq_external q) (data_type_max_interval q))).
  { unfold inside, compose. cbn [iv_from iv_to]. rewrite !iv_clamp_spec by (unfold proper; lia). lia. }
  unfold inside in C1. destruct (iq_max_interval q) as [m|] eqn:E; [|lia].
  assert (P3 := H m (or_intror (or_intror E))). destruct (qo_max q Hq m E) as [Hm _]. unfold proper in Hm.
  unfold compose at 1 3. cbn [iv_from iv_to]. rewrite !iv_clamp_spec by (unfold proper; lia). lia.
Qed.

(** * Arithmetic *)
Lemma to_i32_small x : -2147483648 <= x < 2147483648 -> to_i32 x = x.
Proof. intros. unfold to_i32. rewrite Z.mod_small; lia. Qed.
Lemma to_u32_small x : 0 <= x < 4294967296 -> to_u32 x = x.
Proof. intros. unfold to_u32. now rewrite Z.mod_small. Qed.
Lemma plus32_small t e : 0 <= e < 1000000000 -> -1100000000 <= t <= 1100000000 -> plus32 t e = t + e.
Proof. intros. unfold plus32. rewrite (to_i32_small e) by lia. now rewrite to_i32_small by lia. Qed.
Lemma minus32_small t e : 0 <= e < 1000000000 -> -1100000000 <= t <= 1100000000 -> minus32 t e = t - e.
Proof. intros. unfold minus32. rewrite (to_i32_small e) by lia. now rewrite to_i32_small by lia. Qed.

Lemma extension_eff q iv n : query_ok q -> proper iv -> inside iv (eff q) -> 0 <= n <= 40000 ->
  inside iv (extension q iv n) /\ inside (extension q iv n) (eff q) /\
  (iq_earlier q = false -> iv_from (extension q iv n) = iv_from iv) /\
  (iq_later q = false -> iv_to (extension q iv n) = iv_to iv) /\
  (iv_size iv = 0 -> iv_from (extension q iv n) = iv_from iv /\ iv_to (extension q iv n) = iv_to iv).
Proof.
  intros Hq Hiv Hin Hn. destruct (eff_proper q Hq) as (He & Hw & Hr1 & Hr2). unfold inside, proper in *.
  unfold extension. destruct ((n =? 0) || (negb (iq_earlier q) && negb (iq_later q))) eqn:E; [repeat split; lia|].
  assert (Hs : 0 <= iv_size iv * n <= 23040 * 40000) by (unfold iv_size; nia).
  rewrite clamp_iv_eff by auto. rewrite (to_u32_small (iv_size iv * n)) by lia.
  assert (H2 : 0 <= iv_size iv * n / 2 <= iv_size iv * n).
  { split; [apply Z.div_pos; lia|]. apply Z.div_le_upper_bound; lia. }
  cbn [iv_from iv_to]. rewrite !iv_clamp_spec by auto.
  assert (Hz : iv_size iv = 0 -> iv_size iv * n = 0 /\ iv_size iv * n / 2 = 0).
  { intros Hz. rewrite Hz, Z.mul_0_l. split; reflexivity. }
  destruct (can_extend_earlier q iv && can_extend_later q iv) eqn:Eb; cbn [iv_from iv_to].
  - apply andb_true_iff in Eb. destruct Eb as [Eb1 Eb2]. unfold can_extend_earlier in Eb1. unfold can_extend_later in Eb2.
    apply andb_true_iff in Eb1, Eb2. destruct Eb1 as [-> _], Eb2 as [-> _].
    rewrite plus32_small, minus32_small by lia. split; [lia|]. split; [lia|]. split; [discriminate|]. split; [discriminate|]. intros Hz'; specialize (Hz Hz'); lia.
  - destruct (iq_earlier q), (iq_later q); rewrite ?plus32_small, ?minus32_small by lia;
    (split; [lia|]; split; [lia|]; split; [try discriminate; lia|]; split; [try discriminate; lia|]; intros Hz'; specialize (Hz Hz'); lia).
Qed.

(** Nothing is to be extended: the interval of the query is searched as it is. *)
Definition fixed_interval (q : iquery) : bool := (iq_min_conn q =? 0) || (negb (iq_earlier q) && negb (iq_later q)).
Lemma initial_eff q : query_ok q -> fixed_interval q = false ->
  let iv := q_iv q in
  let iv' := initial q iv in
  proper iv' /\ inside iv' (eff q) /\
  iv_from iv' <= iv_clamp (eff q) (iv_from iv) /\ iv_clamp (eff q) (iv_to iv) <= iv_to iv'.
Proof.
  intros Hq Hf iv iv'. destruct (eff_proper q Hq) as (He & Hw & Hr1 & Hr2). destruct (qo_time q Hq) as [Ht Hrt].
  pose proof (qo_conn q Hq) as Hc. unfold iv', initial. unfold fixed_interval in Hf. rewrite Hf.
  fold iv in Ht, Hrt. unfold iv_range, proper, inside in *.
  rewrite clamp_iv_eff by auto. cbn [iv_from iv_to]. rewrite (to_u32_small (60 * iq_min_conn q)) by lia.
  rewrite (to_u32_small (60 + 60 * iq_min_conn q)) by lia.
  rewrite !iv_clamp_spec by auto.
  destruct (can_extend_bad_dir q iv), (iq_fwd q), (can_extend_earlier q iv), (can_extend_later q iv), (iq_earlier q), (iq_later q);
    cbn [iv_from iv_to]; rewrite ?(plus32_small (iv_to iv) 60), ?(minus32_small (iv_from iv) 60) by lia;
    rewrite ?plus32_small, ?minus32_small by lia; lia.
Qed.

(** * Driver *)
(** What the driver relies on: start labels lie in the requested interval, apart from the on-trip label at its end
    (property C29), and a search for one start time reports journeys with this start time. *)
Definition labels_ok (fwd : bool) (labels : start_time -> bool -> list start -> list start) : Prop :=
  forall iv add starts s, In s (labels (Pretrip iv) add starts) ->
    In s starts \/ iv_from iv <= st_at_start s < iv_to iv \/
    (add = true /\ st_at_start s = if fwd then iv_to iv else iv_from iv - 1).
Definition execute_ok {A} (exec : A -> Z -> list start -> Z -> A * list journey) : Prop :=
  forall a t st w j, In j (snd (exec a t st w)) -> j_start j = t.

Lemma insert_start_in fwd x s l : In x (insert_start fwd s l) <-> x = s \/ In x l.
Proof.
  induction l as [|y l IH]; cbn [insert_start].
  - simpl. intuition.
  - destruct (if fwd then start_lt y s else start_lt s y); simpl; [intuition|]. rewrite IH. intuition.
Qed.
Lemma sort_starts_in fwd x l : In x (sort_starts fwd l) <-> In x l.
Proof.
  induction l as [|y l IH]; cbn [sort_starts fold_right]; [tauto|]. fold (sort_starts fwd l). rewrite insert_start_in, IH. simpl. intuition.
Qed.
(** Start times in the order in which they are searched: latest first (backwards: earliest first). *)
Definition dirz (fwd : bool) (x : Z) : Z := if fwd then x else - x.
Definition searched_before (fwd : bool) (a b : start) : Prop := dirz fwd (st_at_start b) <= dirz fwd (st_at_start a).
Lemma insert_start_sorted fwd s l : StronglySorted (searched_before fwd) l -> StronglySorted (searched_before fwd) (insert_start fwd s l).
Proof.
  induction 1 as [|y l Hs IH Hf]; cbn [insert_start]; [repeat constructor|].
  assert (Hlt : forall a b, start_lt a b = true -> st_at_start a <= st_at_start b).
  { intros a b H. unfold start_lt in H. apply orb_true_iff in H. destruct H as [H|H]; [lia|]. apply andb_true_iff in H. lia. }
  assert (Hge : forall a b, start_lt a b = false -> st_at_start b <= st_at_start a).
  { intros a b H. unfold start_lt in H. apply orb_false_iff in H. lia. }
  destruct (if fwd then start_lt y s else start_lt s y) eqn:E.
  - constructor; [constructor; auto|].
    assert (Hys : searched_before fwd s y) by (unfold searched_before, dirz; destruct fwd; apply Hlt in E; lia).
    constructor; auto. apply Forall_forall. intros z Hz. rewrite Forall_forall in Hf. specialize (Hf z Hz). unfold searched_before in *. lia.
  - constructor; auto. apply Forall_forall. intros z Hz. apply insert_start_in in Hz. destruct Hz as [->|Hz].
    + unfold searched_before, dirz. destruct fwd; apply Hge in E; lia.
    + rewrite Forall_forall in Hf. auto.
Qed.
Lemma sort_starts_sorted fwd l : StronglySorted (searched_before fwd) (sort_starts fwd l).
Proof. induction l as [|y l IH]; cbn [sort_starts fold_right]; [constructor|]. now apply insert_start_sorted. Qed.

Lemma start_groups_in l t g : In (t, g) (start_groups l) -> exists s, In s l /\ st_at_start s = t.
Proof.
  revert t g. induction l as [|x l IH]; cbn [start_groups]; [simpl; tauto|]. intros t g H.
  destruct (start_groups l) as [|[t0 g0] gs].
  - destruct H as [H|[]]. injection H as <- <-. exists x. simpl; auto.
  - destruct (Z.eqb_spec (st_at_start x) t0).
    + destruct H as [H|H]; [injection H as <- <-; exists x; simpl; auto|]. destruct (IH t g) as (s & Hs & E); [now right|]. exists s. simpl; auto.
    + destruct H as [H|H]; [injection H as <- <-; exists x; simpl; auto|]. destruct (IH t g) as (s & Hs & E); [auto|]. exists s. simpl; auto.
Qed.
Lemma start_groups_sorted fwd l : StronglySorted (searched_before fwd) l ->
  StronglySorted (fun a b => dirz fwd (fst b) <= dirz fwd (fst a)) (start_groups l).
Proof.
  induction 1 as [|x l Hs IH Hf]; cbn [start_groups]; [constructor|].
  assert (Hall : forall tg, In tg (start_groups l) -> dirz fwd (fst tg) <= dirz fwd (st_at_start x)).
  { intros [t g] H. apply start_groups_in in H. destruct H as (s & Hin & <-). rewrite Forall_forall in Hf. now apply Hf. }
  destruct (start_groups l) as [|[t0 g0] gs]; [repeat constructor|].
  destruct (Z.eqb_spec (st_at_start x) t0) as [E|E].
  - inversion IH as [|? ? I1 I2]; subst. constructor; auto.
  - constructor; auto. apply Forall_forall. intros tg H. apply Hall. exact H.
Qed.

Lemma set_nth_in {T} (l : list T) n x y : In y (set_nth l n x) -> y = x \/ In y l.
Proof.
  revert n. induction l as [|z l IH]; intros n H; [destruct H|]. destruct n; cbn [set_nth] in H; destruct H as [H|H]; simpl; auto.
  apply IH in H. tauto.
Qed.
Lemma add_in {T} (dom : T -> T -> bool) els el x : In x (fst (add T dom els el)) -> x = el \/ In x els.
Proof.
  unfold add.
  assert (H : forall fuel i n els', incl els' els -> In x (fst (add_loop T dom fuel i n els' el)) -> x = el \/ In x els).
  { induction fuel as [|fuel IH]; intros i n els' Hi H; cbn [add_loop] in H.
    - cbn [fst] in H. apply in_app_iff in H. destruct H as [H|[H|[]]]; auto. right. apply Hi.
      rewrite <- (firstn_skipn (length els' - n) els'). apply in_app_iff. auto.
    - destruct (nth_error els' i) as [y|] eqn:E; [|right; apply Hi; exact H].
      destruct (dom y el); [right; apply Hi; exact H|]. destruct (dom el y); [eapply IH; eauto|].
      eapply IH; [|exact H]. intros z Hz. apply set_nth_in in Hz. destruct Hz as [->|Hz]; auto. apply Hi. eapply nth_error_In; eauto. }
  intros Hx. eapply H; [apply incl_refl|exact Hx].
Qed.

Section Termination.
  Variable q : iquery.
  Variable A : Type.
  Variable reset : A -> A.
  Variable exec : A -> Z -> list start -> Z -> A * list journey.
  Variable recon : A -> journey -> bool.
  Variable labels : start_time -> bool -> list start -> list start.
  Variable fd : Z.
  Variable timeout : nat -> bool.
  Hypothesis Hexec : execute_ok exec.
  Notation fwd := (iq_fwd q).
  Notation group_step := (search_group q A exec recon fd).

  (** Results after one start time: old ones or journeys with this start time. *)
  Lemma add_fold_in (js : list journey) rs r :
    In r (fold_left (fun rs j => fst (add result result_dominates rs (mk_result j false false))) js rs) ->
    In r rs \/ exists j, In j js /\ r_journey r = j.
  Proof.
    revert rs. induction js as [|j js IH]; intros rs H; cbn [fold_left] in H; auto.
    apply IH in H. destruct H as [H|(j' & Hj & E)]; [|right; exists j'; simpl; auto].
    apply add_in in H. destruct H as [->|H]; auto. right. exists j. simpl; auto.
  Qed.

  Definition may_stop_early : bool := if fwd then iq_earlier q && negb (iq_later q) else negb (iq_earlier q) && iq_later q.

  Lemma search_groups_spec gs : forall s,
    StronglySorted (fun a b => dirz fwd (fst b) <= dirz fwd (fst a)) gs ->
    let st := fold_left group_step gs (s, false) in
    (snd st = false -> ds_iv A (fst st) = ds_iv A s /\
       forall r, In r (ds_results A (fst st)) -> (exists r0, In r0 (ds_results A s) /\ r_journey r = r_journey r0) \/ In (j_start (r_journey r)) (map fst gs)) /\
    (snd st = true -> may_stop_early = true /\ 0 < iq_min_conn q /\ (is_ontrip q = false -> 0 < iv_size (ds_iv A s)) /\
       (exists g, In g gs /\ ds_iv A (fst st) = if fwd then mk_iv (fst g) (iv_to (ds_iv A s)) else mk_iv (iv_from (ds_iv A s)) (fst g + 1)) /\
       ((forall r g, In r (ds_results A s) -> In g gs -> dirz fwd (fst g) <= dirz fwd (j_start (r_journey r))) ->
        iq_min_conn q <= n_results_in_interval q (ds_iv A (fst st)) (ds_results A (fst st)))).
  Proof.
    assert (Hskip : forall gs s, fold_left group_step gs (s, true) = (s, true)).
    { clear. induction gs as [|g gs IH]; intros s; cbn [fold_left search_group]; auto. }
    induction gs as [|g gs IH]; intros s Hs; cbn [fold_left].
    - cbn [fst snd]. split; [intros _; split; auto; intros r Hr; left; eauto|discriminate].
    - inversion Hs as [|? ? Hs1 Hs2]; subst.
      destruct (group_step (s, false) g) as [s1 early] eqn:Eg.
      assert (Hg : (early = false -> ds_iv A s1 = ds_iv A s) /\
        (forall r, In r (ds_results A s1) -> (exists r0, In r0 (ds_results A s) /\ r_journey r = r_journey r0) \/ j_start (r_journey r) = fst g) /\
        (early = true -> may_stop_early = true /\ 0 < iq_min_conn q /\ iq_min_conn q <= n_results_in_interval q (ds_iv A s) (ds_results A s1) /\
            ds_iv A s1 = if fwd then mk_iv (fst g) (iv_to (ds_iv A s)) else mk_iv (iv_from (ds_iv A s)) (fst g + 1))).
      { clear IH. unfold search_group in Eg.
        destruct (exec (ds_algo A s) (fst g) (snd g) (fst g + (if fwd then 1 else -1) * (Z.min fd (iq_max_travel q) + 1))) as [a js] eqn:Ex.
        injection Eg as <- <-. cbn [ds_iv ds_results]. fold may_stop_early.
        set (rs := map _ _). set (stop := (0 <? iq_min_conn q) && _ && may_stop_early).
        split; [intros ->; reflexivity|]. split.
        - intros r Hr. unfold rs in Hr. apply in_map_iff in Hr. destruct Hr as (r1 & E & Hr1).
          assert (Ej : r_journey r = r_journey r1) by (subst r; repeat match goal with |- r_journey (if ?c then _ else _) = _ => destruct c end; reflexivity).
          apply add_fold_in in Hr1. destruct Hr1 as [Hr1|(j & Hj & E1)]; [left; eauto|].
          right. rewrite Ej, E1. apply (Hexec (ds_algo A s) (fst g) (snd g) (fst g + (if fwd then 1 else -1) * (Z.min fd (iq_max_travel q) + 1))).
          rewrite Ex. exact Hj.
        - intros E. rewrite E. unfold stop in E. apply andb_true_iff in E. destruct E as [E E3]. apply andb_true_iff in E. destruct E as [E1 E2].
          split; auto. split; [lia|]. split; [apply Z.leb_le; exact E2|]. reflexivity. }
      destruct Hg as (G1 & G2 & G3). destruct early.
      + rewrite Hskip. cbn [fst snd]. split; [discriminate|]. intros _. destruct (G3 eq_refl) as (K1 & K2 & K3 & K4).
        split; auto. split; auto. split.
        { intros Eo. unfold n_results_in_interval in K3. rewrite Eo in K3.
          destruct (filter (fun r => iv_contains (ds_iv A s) (j_start (r_journey r))) (ds_results A s1)) as [|r l] eqn:Ef; [cbn in K3; lia|].
          assert (Hr : In r (r :: l)) by now left. rewrite <- Ef in Hr. apply filter_In in Hr. destruct Hr as [_ Hr].
          unfold iv_contains in Hr. unfold iv_size. lia. }
        split; [exists g; split; [now left|exact K4]|].
        intros Hres.
        eapply Z.le_trans; [exact K3|]. unfold n_results_in_interval. destruct (is_ontrip q); [lia|].
        apply inj_le. rewrite K4.
        assert (Hge : forall r, In r (ds_results A s1) -> dirz fwd (fst g) <= dirz fwd (j_start (r_journey r))).
        { intros r Hr. destruct (G2 r Hr) as [(r0 & Hr0 & E)|E]; [|rewrite E; lia]. rewrite E. apply Hres; [auto|now left]. }
        clear - Hge. unfold dirz in Hge. induction (ds_results A s1) as [|r rs IH]; cbn [filter length]; [lia|].
        assert (IH' := IH (fun r' H => Hge r' (or_intror H))). specialize (Hge r (or_introl eq_refl)).
        destruct (iv_contains (ds_iv A s) (j_start (r_journey r))) eqn:E1.
        * assert (E2 : iv_contains (if fwd then mk_iv (fst g) (iv_to (ds_iv A s)) else mk_iv (iv_from (ds_iv A s)) (fst g + 1)) (j_start (r_journey r)) = true).
          { unfold iv_contains in *. apply andb_true_iff in E1. apply andb_true_iff. destruct fwd; cbn [iv_from iv_to]; split; lia. }
          rewrite E2. cbn [length]. lia.
        * destruct (iv_contains (if fwd then _ else _) _); cbn [length]; lia.
      + specialize (IH s1 Hs1). cbv zeta in IH. set (st := fold_left group_step gs (s1, false)) in *. destruct IH as [IH1 IH2].
        split.
        * intros E. destruct (IH1 E) as [I1 I2]. split; [rewrite I1; auto|]. intros r Hr. cbn [map In].
          destruct (I2 r Hr) as [(r0 & Hr0 & E0)|Hin]; [|auto].
          destruct (G2 r0 Hr0) as [(r1 & Hr1 & E1)|E1]; [left; exists r1; split; auto; congruence|]. right. left. rewrite E0. auto.
        * intros E. destruct (IH2 E) as (I1 & I2 & I4 & (g' & Hg' & Eg') & I3). split; auto. split; auto. split; [rewrite <- (G1 eq_refl); auto|].
          split; [exists g'; split; [now right|rewrite Eg', (G1 eq_refl); reflexivity]|]. intros Hres. apply I3. intros r g2 Hr Hg2.
          rewrite Forall_forall in Hs2. specialize (Hs2 g2 Hg2). cbn beta in Hs2.
          destruct (G2 r Hr) as [(r0 & Hr0 & E0)|E0]; rewrite E0; [|exact Hs2]. apply Hres; auto. now right.
  Qed.

  Hypothesis Hlabels : labels_ok fwd labels.
  Hypothesis Hq : query_ok q.
  Notation loop := (search_loop q A reset exec recon labels fd timeout).
  (** The last minute of an interval in search order. *)
  Definition edge (iv : interval) : Z := dirz fwd (if fwd then iv_from iv else iv_to iv - 1).
  Definition loop_inv (s : dstate A) (starts : list start) : Prop :=
    StronglySorted (searched_before fwd) starts /\ proper (ds_iv A s) /\ inside (ds_iv A s) (eff q) /\
    (may_stop_early = true -> 0 < iv_size (ds_iv A s) ->
       (forall r x, In r (ds_results A s) -> In x starts -> dirz fwd (st_at_start x) <= dirz fwd (j_start (r_journey r))) /\
       (forall x, In x starts -> edge (ds_iv A s) <= dirz fwd (st_at_start x)) /\
       (forall r, In r (ds_results A s) -> edge (ds_iv A s) <= dirz fwd (j_start (r_journey r)))).

  Lemma add_start_labels_in t add starts x : In x (add_start_labels q labels t add starts) <-> In x (labels t add (rev starts)).
  Proof. unfold add_start_labels. rewrite sort_starts_in, <- in_rev. tauto. Qed.

  (** Result of the loop: the interval stays within the limits; it still contains the initial one unless enough journeys
      were found on the way. *)
  Definition loop_result (s : dstate A) (o : option (dstate A)) : Prop :=
    exists s', o = Some s' /\ inside (ds_iv A s') (eff q) /\
      (inside (ds_iv A s) (ds_iv A s') \/
       (may_stop_early = true /\ iq_min_conn q <= n_results_in_interval q (ds_iv A s') (ds_results A s'))).
  Lemma loop_terminates : is_ontrip q = false -> forall fuel n s starts,
    loop_inv s starts -> iv_to (eff q) - iv_from (eff q) - iv_size (ds_iv A s) < Z.of_nat fuel ->
    loop_result s (loop fuel n s starts).
  Proof.
    intros Hpre. induction fuel as [|fuel IH]; intros n s starts (Hsort & Hprop & Hin & Hinv) Hfuel.
    { exfalso. unfold inside, iv_size in *. lia. }
    cbn [search_loop].
    destruct (search_groups_spec (start_groups starts) s (start_groups_sorted _ _ Hsort)) as [Hno Hyes].
    unfold search_interval in *. set (st := fold_left group_step (start_groups starts) (s, false)) in *.
    set (s1 := fst st) in *. set (n_res := n_results_in_interval q (ds_iv A s1) (ds_results A s1)).
    destruct (match ds_results A s1 with [] => true | _ => false end || is_ontrip q || (iq_min_conn q <=? n_res) || timeout n) eqn:Ebr.
    { exists s1. split; [reflexivity|]. destruct (snd st) eqn:Est.
      - destruct (Hyes eq_refl) as (Y1 & Y2 & Y3 & (g & Hg & Eg) & Y4). specialize (Y3 Hpre). destruct (Hinv Y1 Y3) as (V1 & V2 & V3).
        assert (Hgt : forall g', In g' (start_groups starts) -> exists x, In x starts /\ st_at_start x = fst g').
        { intros [t' g'] Hg'. apply start_groups_in in Hg'. exact Hg'. }
        split.
        + destruct (Hgt g Hg) as (x & Hx & Ex). specialize (V2 x Hx). fold s1 in Eg. rewrite Eg. rewrite Ex in V2.
          unfold edge, dirz in V2. unfold inside in *. destruct fwd; cbn [iv_from iv_to]; lia.
        + right. split; auto. apply Y4. intros r g' Hr Hg'. destruct (Hgt g' Hg') as (x & Hx & Ex). rewrite <- Ex. auto.
      - destruct (Hno eq_refl) as [Eiv _]. fold s1 in Eiv. rewrite Eiv. split; auto. left. unfold inside. lia. }
    apply orb_false_iff in Ebr. destruct Ebr as [Ebr _]. apply orb_false_iff in Ebr. destruct Ebr as [_ Ebr].
    apply Z.leb_gt in Ebr.
    assert (Hnres : 0 <= n_res) by (unfold n_res, n_results_in_interval; destruct (is_ontrip q); lia).
    destruct (snd st) eqn:Est.
    { exfalso. destruct (Hyes eq_refl) as (Y1 & Y2 & Y3 & _ & Y4). specialize (Y3 Hpre). destruct (Hinv Y1 Y3) as (V1 & V2 & V3).
      assert (iq_min_conn q <= n_res); [|lia]. apply Y4. intros r [t g] Hr Hg. apply start_groups_in in Hg. destruct Hg as (x & Hx & <-).
      cbn [fst]. apply V1; auto. }
    clear Hyes. destruct (Hno eq_refl) as [Eiv Hres]. clear Hno.
    pose proof (qo_conn q Hq) as Hconn.
    assert (Hreq : 0 <= iq_min_conn q - n_res <= 40000) by lia.
    rewrite Eiv. destruct (extension_eff q (ds_iv A s) (iq_min_conn q - n_res) Hq Hprop Hin Hreq) as (X1 & X2 & X3 & X4 & X5).
    set (iv := ds_iv A s) in *. set (iv' := extension q iv (iq_min_conn q - n_res)) in *.
    destruct ((iv_from iv' =? iv_from iv) && (iv_to iv' =? iv_to iv)) eqn:Eeq.
    { exists s1. split; [reflexivity|]. rewrite Eiv. split; auto. left. fold iv. unfold inside. lia. }
    assert (Hgrow : iv_from iv' < iv_from iv \/ iv_to iv < iv_to iv').
    { unfold inside in X1. apply andb_false_iff in Eeq. rewrite !Z.eqb_neq in Eeq. lia. }
    assert (Hsize : 0 < iv_size iv) by (unfold iv_size in *; unfold proper in Hprop; lia).
    set (earlier := negb (iv_from iv' =? iv_from iv)). set (later := negb (iv_to iv' =? iv_to iv)).
    set (st1 := if earlier then add_start_labels q labels (Pretrip (mk_iv (iv_from iv') (iv_from iv))) (negb fwd) [] else []).
    set (st2 := if later then add_start_labels q labels (Pretrip (mk_iv (iv_to iv) (iv_to iv'))) fwd st1 else st1).
    set (s2 := if (if fwd then later else earlier) then _ else _).
    assert (E2 : ds_iv A s2 = iv') by (unfold s2; destruct (if fwd then later else earlier); reflexivity).
    assert (Hloop : loop_result s2 (loop fuel (S n) s2 st2)).
    2: { destruct Hloop as (s' & L1 & L2 & L3). exists s'. split; [exact L1|]. split; [exact L2|].
         destruct L3 as [L3|L3]; [left|right; exact L3]. rewrite E2 in L3. unfold inside in *. fold iv. lia. }
    apply IH.
    - assert (Hst1 : StronglySorted (searched_before fwd) st1).
      { unfold st1. destruct earlier; [apply sort_starts_sorted|constructor]. }
      split; [unfold st2; destruct later; [apply sort_starts_sorted|exact Hst1]|].
      rewrite E2. split; [unfold proper, inside in *; lia|]. split; [exact X2|].
      intros Hmay _. destruct (Hinv Hmay Hsize) as (V1 & V2 & V3).
      assert (Hr1 : forall r, In r (ds_results A s1) -> edge iv <= dirz fwd (j_start (r_journey r))).
      { intros r Hr. destruct (Hres r Hr) as [(r0 & Hr0 & E)|Hg]; [rewrite E; auto|].
        apply in_map_iff in Hg. destruct Hg as ([t g] & E & Hg). apply start_groups_in in Hg. destruct Hg as (x & Hx & Ex).
        cbn [fst] in E. rewrite <- E, <- Ex. auto. }
      assert (Hr2 : forall r, In r (ds_results A s2) -> In r (ds_results A s1)).
      { intros r Hr. unfold s2 in Hr. destruct (if fwd then later else earlier); cbn [ds_results] in Hr; auto. apply filter_In in Hr. tauto. }
      (* only one side can be extended *)
      assert (Hside : forall x, In x st2 -> edge iv' <= dirz fwd (st_at_start x) < edge iv).
      { unfold may_stop_early in Hmay. unfold edge, dirz in *. destruct fwd eqn:Ef.
        - apply andb_true_iff in Hmay. destruct Hmay as [_ Hl]. apply negb_true_iff in Hl. specialize (X4 Hl).
          assert (El : later = false) by (unfold later; rewrite X4, Z.eqb_refl; reflexivity).
          intros x Hx. unfold st2 in Hx. rewrite El in Hx. unfold st1 in Hx. destruct earlier; [|destruct Hx].
          apply add_start_labels_in in Hx. apply Hlabels in Hx. cbn [rev iv_from iv_to negb] in Hx. destruct Hx as [[]|[Hx|[Hx _]]]; [lia|discriminate].
        - apply andb_true_iff in Hmay. destruct Hmay as [Hl _]. apply negb_true_iff in Hl. specialize (X3 Hl).
          assert (El : earlier = false) by (unfold earlier; rewrite X3, Z.eqb_refl; reflexivity).
          intros x Hx. unfold st2 in Hx. unfold st1 in Hx. rewrite El in Hx. destruct later; [|destruct Hx].
          apply add_start_labels_in in Hx. apply Hlabels in Hx. cbn [rev iv_from iv_to] in Hx. destruct Hx as [[]|[Hx|[Hx _]]]; [lia|discriminate]. }
      split; [|split].
      + intros r x Hr Hx. specialize (Hside x Hx). specialize (Hr1 r (Hr2 r Hr)). lia.
      + intros x Hx. specialize (Hside x Hx). lia.
      + intros r Hr. specialize (Hr1 r (Hr2 r Hr)). unfold edge, dirz, inside in *. destruct fwd; lia.
    - rewrite E2. unfold inside, iv_size in *. lia.
  Qed.
End Termination.

(** * C30 *)
(** The interval the search may grow to (no more than 16 days around the requested one) contains the requested interval if
    that spans at most 14 days; all its times and everything up to 14 days away from them - a travel time is at most 5 days -
    are representable relative to the search's base day. *)
Definition base_time (q : iquery) : Z :=
  round_days (iv_from (q_iv q) + Z.quot (iv_to (q_iv q) - iv_from (q_iv q)) 2).      (* search.h:158-163 *)
Theorem C30_search_window : forall q, proper (q_iv q) ->
  let w := data_type_max_interval q in
  proper w /\ iv_to w - iv_from w <= 16 * 1440 /\
  (iv_to (q_iv q) - iv_from (q_iv q) <= 14 * 1440 -> inside (q_iv q) w) /\
  (forall t d, iv_from w <= t <= iv_to w -> -20160 <= d <= 20160 -> -32768 < t + d - base_time q < 32767).
Proof.
  intros q Hp w. destruct (dtmi_spec q Hp) as (H1 & H2 & H3 & H4). fold w in H1, H2, H3, H4.
  split; auto. split; [lia|].
  unfold w, data_type_max_interval, base_time, inside, proper in *. cbn [iv_from iv_to] in *. rewrite kmax_val in *.
  replace (2 * 1440) with 2880 in * by reflexivity.
  set (a := iv_from (q_iv q)) in *. set (b := iv_to (q_iv q)) in *.
  set (d := if iq_has_direct q then 1440 else 2880) in *. assert (Hd : 1440 <= d <= 2880) by (unfold d; destruct (iq_has_direct q); lia).
  pose proof (round_days_spec (a - d)) as [R1 _]. pose proof (round_days_spec (b + d)) as [R2 _].
  pose proof (round_days_spec (a + Z.quot (b - a - 21600) 2)) as [R3 _]. pose proof (round_days_spec (a + Z.quot (b - a + 21600) 2)) as [R4 _].
  pose proof (round_days_spec (a + Z.quot (b - a) 2)) as [R5 _].
  pose proof (quot2_bounds (b - a - 21600)). pose proof (quot2_bounds (b - a + 21600)). pose proof (quot2_bounds (b - a)).
  split.
  - intros Hs. assert (2 * Z.quot (b - a - 21600) 2 <= b - a - 21600 + 1) by lia.
    assert (Z.quot (b - a - 21600) 2 <= -720).
    { replace (-720) with (Z.quot (-1440) 2) by reflexivity. apply Z.quot_le_mono; lia. }
    assert (b - a + 720 <= Z.quot (b - a + 21600) 2).
    { apply Z.quot_le_lower_bound; lia. }
    lia.
  - intros t x Ht Hx. lia.
Qed.

(** Extending a search interval only enlarges it, in the enabled directions, within all limits. *)
Theorem C30_extension_grows_within_limits : forall q iv n,
  query_ok q -> limits_meet q -> proper iv -> (forall i, is_limit q i -> inside iv i) -> 0 <= n <= 40000 ->
  let iv' := extension q iv n in
  inside iv iv' /\ (forall i, is_limit q i -> inside iv' i) /\
  (iq_earlier q = false -> iv_from iv' = iv_from iv) /\ (iq_later q = false -> iv_to iv' = iv_to iv).
Proof.
  intros q iv n Hq Hm Hp Hin Hn iv'.
  destruct (extension_eff q iv n Hq Hp (eff_contains q iv Hq Hp Hin) Hn) as (X1 & X2 & X3 & X4 & _). fold iv' in X1, X2, X3, X4.
  split; auto. split; [|split; auto]. intros i Hi. pose proof (eff_inside q i Hq Hm Hi). unfold inside in *. lia.
Qed.
(** The first searched interval: the requested one, or - if it may be extended - one within all limits that contains every
    requested time within the limits. *)
Theorem C30_initial_interval : forall q, query_ok q -> limits_meet q ->
  let iv' := initial q (q_iv q) in
  (fixed_interval q = true /\ iv' = q_iv q) \/
  (proper iv' /\ (forall i, is_limit q i -> inside iv' i) /\
   forall t, iv_from (q_iv q) <= t <= iv_to (q_iv q) -> (forall i, is_limit q i -> iv_from i <= t <= iv_to i) -> iv_from iv' <= t <= iv_to iv').
Proof.
  intros q Hq Hm iv'. destruct (fixed_interval q) eqn:Ef.
  - left. split; auto. unfold iv', initial. unfold fixed_interval in Ef. rewrite Ef. reflexivity.
  - right. destruct (initial_eff q Hq Ef) as (I1 & I2 & I3 & I4). fold iv' in I1, I2, I3, I4. split; auto. split.
    + intros i Hi. pose proof (eff_inside q i Hq Hm Hi). unfold inside in *. lia.
    + intros t Ht Hl. destruct (eff_proper q Hq) as (He & _).
      assert (Hte : inside (mk_iv t t) (eff q)).
      { apply eff_contains; [exact Hq|unfold proper; cbn; apply Z.le_refl|]. intros i Hi. specialize (Hl i Hi). unfold inside. cbn. lia. }
      unfold inside in Hte. cbn [iv_from iv_to] in Hte. rewrite iv_clamp_spec in I3, I4 by auto. lia.
Qed.

(** The search terminates - after at most 23041 interval extensions, one per minute of the window - for every search
    algorithm, whatever it finds, for every clock and any number of results; the interval it reports respects the limits and
    contains the first one, unless the search stopped early (which it may do only if extending against the search direction). *)
Theorem C30_search_terminates : forall q A reset exec recon labels fd timeout slow (a0 : A),
  query_ok q -> labels_ok (iq_fwd q) labels -> execute_ok exec ->
  exists rs iv, execute q A reset exec recon labels fd timeout slow (Z.to_nat 23041) a0 = Some (rs, iv) /\
    (fixed_interval q = true -> iv = q_iv q) /\
    (is_ontrip q = false -> fixed_interval q = false -> limits_meet q ->
       (forall i, is_limit q i -> inside iv i) /\
       (inside (initial q (q_iv q)) iv \/
        (if iq_fwd q then iq_earlier q = true /\ iq_later q = false else iq_earlier q = false /\ iq_later q = true))).
Proof.
  intros q A reset exec recon labels fd timeout slow a0 Hq Hl Hx. unfold execute.
  set (iv0 := if is_ontrip q then q_iv q else initial q (q_iv q)).
  set (starts := add_start_labels _ _ _ _ _).
  assert (Hsort : StronglySorted (searched_before (iq_fwd q)) starts) by apply sort_starts_sorted.
  assert (Hgs := search_groups_spec q A exec recon fd Hx (start_groups starts) (mk_dstate A a0 [] iv0) (start_groups_sorted _ _ Hsort)).
  cbv zeta in Hgs. destruct Hgs as [Hno Hyes].
  assert (Hfuel : exists f, Z.to_nat 23041 = S f) by (exists (Z.to_nat 23040); rewrite <- Z2Nat.inj_succ by lia; reflexivity).
  destruct (fixed_interval q) eqn:Ecase.
  - destruct Hfuel as [f ->]. cbn [search_loop]. unfold search_interval.
    set (st := fold_left _ (start_groups starts) _) in *.
    assert (Eiv0 : iv0 = q_iv q).
    { unfold iv0. destruct (is_ontrip q); auto. unfold initial. unfold fixed_interval in Ecase. rewrite Ecase. reflexivity. }
    assert (Hns : snd st = false).
    { destruct (snd st) eqn:E; auto. exfalso.
      destruct (Hyes eq_refl) as (Y1 & Y2 & _). unfold fixed_interval in Ecase. unfold may_stop_early in Y1.
      destruct (Z.eqb_spec (iq_min_conn q) 0) as [E0|E0]; [lia|]. cbn [orb] in Ecase.
      destruct (iq_earlier q), (iq_later q), (iq_fwd q); discriminate. }
    destruct (Hno Hns) as [Eiv _]. cbn [ds_iv] in Eiv. rewrite Eiv0 in Eiv.
    match goal with |- context [if ?c then Some _ else _] => destruct c eqn:Ebr end.
    + do 2 eexists. split; [reflexivity|]. split; auto. discriminate.
    + assert (Eext : forall m, extension q (ds_iv A (fst st)) (iq_min_conn q - m) = ds_iv A (fst st) \/ iq_min_conn q = 0).
      { intros m. unfold fixed_interval in Ecase. destruct (Z.eqb_spec (iq_min_conn q) 0) as [E0|E0]; [now right|]. left.
        cbn [orb] in Ecase. unfold extension. rewrite Ecase, orb_true_r. reflexivity. }
      specialize (Eext (n_results_in_interval q (ds_iv A (fst st)) (ds_results A (fst st)))).
      destruct Eext as [Eext|E0].
      * rewrite Eext, !Z.eqb_refl. cbn [andb]. do 2 eexists. split; [reflexivity|]. split; auto. discriminate.
      * exfalso. rewrite !orb_false_iff in Ebr. destruct Ebr as [[_ Ebr] _]. apply Z.leb_gt in Ebr. rewrite E0 in Ebr.
        unfold n_results_in_interval in Ebr. destruct (is_ontrip q); lia.
  - destruct (is_ontrip q) eqn:Eo.
    + destruct Hfuel as [f ->]. cbn [search_loop]. rewrite Eo, orb_true_r. cbn [orb].
      do 2 eexists. split; [reflexivity|]. split; discriminate.
    + destruct (initial_eff q Hq Ecase) as (I1 & I2 & I3 & I4). unfold iv0 in *.
      destruct (loop_terminates q A reset exec recon labels fd timeout Hx Hl Hq Eo (Z.to_nat 23041) 0 (mk_dstate A a0 [] (initial q (q_iv q))) starts)
        as (s' & L1 & L2 & L3).
      * split; auto. cbn [ds_iv ds_results]. split; auto. split; auto. intros _ Hsz. split; [intros ? ? []|]. split; [|intros ? []].
        intros x Hin. unfold starts in Hin. apply add_start_labels_in in Hin. 
        destruct (Z.eqb_spec (iv_size (initial q (q_iv q))) 0) as [E|E]; [lia|]. cbn [negb] in Hin.
        apply Hl in Hin. cbn [rev] in Hin. unfold edge, dirz. unfold iv_size in Hsz.
        destruct Hin as [[]|[Hin|[_ Hin]]]; destruct (iq_fwd q); lia.
      * destruct (eff_proper q Hq) as (He & Hw & _). unfold iv_size, proper in *. cbn [ds_iv]. rewrite Z2Nat.id by lia. lia.
      * rewrite L1. do 2 eexists. split; [reflexivity|]. split; [discriminate|]. intros _ _ Hm. split.
        -- intros i Hi. pose proof (eff_inside q i Hq Hm Hi). unfold inside in *. lia.
        -- destruct L3 as [L3|[L3 L4]]; [left; exact L3|right].
           unfold may_stop_early in L3. destruct (iq_fwd q), (iq_earlier q), (iq_later q); try discriminate; auto.
Qed.

(** ** What is returned *)
Lemma insert_result_in r x l : In x (insert_result r l) <-> x = r \/ In x l.
Proof.
  induction l as [|y l IH]; cbn [insert_result]; [simpl; intuition|].
  match goal with |- In _ (if ?c then _ else _) <-> _ => destruct c end; simpl; [intuition|]. rewrite IH. intuition.
Qed.
Definition result_le (a b : result) : Prop :=
  j_start (r_journey a) < j_start (r_journey b) \/
  (j_start (r_journey a) = j_start (r_journey b) /\ j_transfers (r_journey a) <= j_transfers (r_journey b)).
Lemma insert_result_sorted r l : StronglySorted result_le l -> StronglySorted result_le (insert_result r l).
Proof.
  induction 1 as [|y l Hs IH Hf]; cbn [insert_result]; [repeat constructor|].
  destruct ((j_start (r_journey r) <? j_start (r_journey y)) ||
            ((j_start (r_journey r) =? j_start (r_journey y)) && (j_transfers (r_journey r) <? j_transfers (r_journey y)))) eqn:E.
  - assert (Hry : result_le r y).
    { unfold result_le. apply orb_true_iff in E. destruct E as [E|E]; [lia|]. apply andb_true_iff in E. lia. }
    constructor; [constructor; auto|]. constructor; auto. rewrite Forall_forall in *. intros z Hz. specialize (Hf z Hz).
    unfold result_le in *. lia.
  - constructor; auto. apply Forall_forall. intros z Hz. apply insert_result_in in Hz. destruct Hz as [->|Hz].
    + unfold result_le. apply orb_false_iff in E. destruct E as [E1 E2]. apply andb_false_iff in E2. lia.
    + rewrite Forall_forall in Hf. auto.
Qed.
Lemma fold_insert_in x l : forall acc, In x (fold_left (fun acc r => insert_result r acc) l acc) <-> In x acc \/ In x l.
Proof.
  induction l as [|y l IH]; intros acc; cbn [fold_left]; [simpl; intuition|]. rewrite IH, insert_result_in. simpl. intuition.
Qed.
Lemma fold_insert_sorted l : forall acc, StronglySorted result_le acc ->
  StronglySorted result_le (fold_left (fun acc r => insert_result r acc) l acc).
Proof. induction l as [|y l IH]; intros acc H; cbn [fold_left]; auto. apply IH. now apply insert_result_sorted. Qed.
Lemma filter_sorted {T} (R : T -> T -> Prop) f l : StronglySorted R l -> StronglySorted R (filter f l).
Proof.
  induction 1 as [|y l Hs IH Hf]; cbn [filter]; [constructor|]. destruct (f y); auto. constructor; auto.
  rewrite Forall_forall in *. intros z Hz. apply filter_In in Hz. apply Hf. tauto.
Qed.

(** A pre-trip query returns journeys that start in the reported interval, are faster than the fastest direct connection,
    respect the travel time limit and could be reconstructed, sorted by departure and number of transfers. *)
Theorem C30_results_within_limits : forall q A reset exec recon labels fd timeout slow fuel (a0 : A) rs iv,
  is_ontrip q = false -> execute q A reset exec recon labels fd timeout slow fuel a0 = Some (rs, iv) ->
  (forall r, In r rs -> iv_from iv <= j_start (r_journey r) < iv_to iv /\
     journey_travel_time (r_journey r) < fd /\ journey_travel_time (r_journey r) <= iq_max_travel q /\ r_reconstructed r = true) /\
  StronglySorted result_le rs.
Proof.
  intros q A reset exec recon labels fd timeout slow fuel a0 rs iv Ho H. unfold execute in H.
  match type of H with match ?l with Some _ => _ | None => _ end = _ => destruct l as [s|] eqn:El; [|discriminate] end.
  injection H as Hrs Hiv. unfold finish in Hrs. rewrite Ho in Hrs. subst rs iv. split.
  - intros r Hr. apply filter_In in Hr. destruct Hr as [Hr Hrec]. apply fold_insert_in in Hr. destruct Hr as [[]|Hr].
    apply in_app_iff in Hr. destruct Hr as [Hr|Hr].
    + apply filter_In in Hr. destruct Hr as [_ Hk]. unfold keep_result in Hk. apply andb_true_iff in Hk. destruct Hk as [Hk K3].
      apply andb_true_iff in Hk. destruct Hk as [K1 K2]. unfold iv_contains in K1. apply andb_true_iff in K1. destruct K1 as [K0 K1].
      apply Z.leb_le in K0, K3. apply Z.ltb_lt in K1, K2. auto.
    + exfalso. apply in_map_iff in Hr. destruct Hr as (j & E & _). subst r. discriminate.
  - apply filter_sorted, fold_insert_sorted. constructor.
Qed.

(** REFUTED: "slower direct connections are added to the result when requested".  They never are: the filter at the end
    drops every journey not marked as reconstructed, and those are not marked (search.h:327-337, direct.cc:524-580). *)
Lemma filter_insert_false r l : r_reconstructed r = false -> filter r_reconstructed (insert_result r l) = filter r_reconstructed l.
Proof.
  intros E. induction l as [|x l IH]; cbn [insert_result]; [cbn; now rewrite E|].
  match goal with |- filter _ (if ?c then _ else _) = _ => destruct c end; cbn [filter]; rewrite ?E, ?IH; reflexivity.
Qed.
Theorem C30_slow_direct_never_returned : forall q A reset exec recon labels fd timeout slow slow' fuel (a0 : A),
  execute q A reset exec recon labels fd timeout slow fuel a0 = execute q A reset exec recon labels fd timeout slow' fuel a0.
Proof.
  intros. unfold execute. match goal with |- match ?l with Some _ => _ | None => _ end = _ => destruct l as [s|]; [|reflexivity] end.
  assert (E : forall sd, filter r_reconstructed (fold_left (fun acc r => insert_result r acc)
       (filter (keep_result q fd (ds_iv A s)) (ds_results A s) ++ map (fun j => mk_result j false false) sd) []) =
     filter r_reconstructed (fold_left (fun acc r => insert_result r acc) (filter (keep_result q fd (ds_iv A s)) (ds_results A s)) [])).
  { intros sd. rewrite fold_left_app. match goal with |- context [fold_left _ (map _ sd) ?acc] => generalize acc end.
    induction sd as [|j sd IH]; intros acc; cbn [map fold_left]; auto. rewrite IH. now apply filter_insert_false. }
  unfold finish. destruct (is_ontrip q); [reflexivity|]. now rewrite !E.
Qed.

(** REFUTED: "the requested interval is searched".  If it may be extended it is first cut to the limits: a 17 day interval
    starting at midnight loses one day at both ends. *)
Definition big_query : iquery :=
  mk_iquery true (Pretrip (mk_iv 28800000 (28800000 + 17 * 1440))) true true 5 None false 1440 (mk_iv 28000000 29600000).
Theorem C30_requested_interval_cut_refuted : exists q, query_ok q /\ limits_meet q /\ inside (q_iv q) (iq_external q) /\
  ~ inside (q_iv q) (initial q (q_iv q)).
Proof.
  exists big_query. split.
  { constructor; unfold proper, iv_range; cbn; try lia. discriminate. }
  split. { exists 28805000. intros i [->|[->|H]]; [cbn; lia|vm_compute; split; discriminate|discriminate]. }
  unfold inside. split; [cbn; lia|]. vm_compute. intros [H _]. apply H. reflexivity.
Qed.
(** REFUTED: "all times of a search are representable relative to its base day".  An interval that is not to be extended is
    not limited at all: 60 days reach beyond 16 bit minutes. *)
Theorem C30_fixed_interval_overflow_refuted : exists q, query_ok q /\ fixed_interval q = true /\
  let iv := initial q (q_iv q) in inside iv (iq_external q) /\ ~ iv_to iv - 1 - base_time q <= 32767.
Proof.
  exists (mk_iquery true (Pretrip (mk_iv 28800000 (28800000 + 60 * 1440))) false false 0 None false 1440 (mk_iv 28000000 29600000)).
  split. { constructor; unfold proper, iv_range; cbn; try lia. discriminate. }
  split; [reflexivity|]. split; [unfold inside; cbn; lia|]. vm_compute. intros H. apply H. reflexivity.
Qed.

(** ** Non-vacuity: a query for one hour asking for five connections, run with a toy search that finds one journey per start
    time. *)
Definition toy_query : iquery :=
  mk_iquery true (Pretrip (mk_iv 28800000 28800060)) true true 5 None false 1440 (mk_iv 28700000 28900000).
Definition toy_labels (t : start_time) (add_on : bool) (st : list start) : list start :=
  match t with
  | Ontrip x => mk_start x x 0 :: st
  | Pretrip iv =>
      map (fun k => let x := iv_from iv + Z.of_nat k in mk_start x x 0)
        (filter (fun k => (iv_from iv + Z.of_nat k) mod 120 =? 0) (seq 0 (Z.to_nat (iv_to iv - iv_from iv)))) ++ st
  end.
Definition toy_exec (a : unit) (t : Z) (st : list start) (w : Z) : unit * list journey :=
  (tt, [mk_journey t (t + 30) 0]).
Example C30_toy_query_ok : query_ok toy_query /\ limits_meet toy_query /\ labels_ok true toy_labels /\ execute_ok toy_exec.
Proof.
  split. { constructor; unfold proper, iv_range; cbn; try lia. discriminate. }
  split. { exists 28800000. intros i [->|[->|H]]; [cbn; lia|vm_compute; split; discriminate|discriminate]. }
  split.
  - intros iv add starts s H. unfold toy_labels in H. apply in_app_iff in H. destruct H as [H|H]; [|auto].
    apply in_map_iff in H. destruct H as (k & E & Hk). apply filter_In in Hk. destruct Hk as [Hk _]. apply in_seq in Hk. subst s. cbn.
    right. left. lia.
  - intros a t st w j [H|[]]. subst j. reflexivity.
Qed.
Example C30_toy_run :
  execute toy_query unit (fun a => a) toy_exec (fun _ _ => true) toy_labels 600 (fun _ => false) (fun _ => []) 20 tt
  <> None /\
  exists rs iv, execute toy_query unit (fun a => a) toy_exec (fun _ _ => true) toy_labels 600 (fun _ => false) (fun _ => []) 20 tt
    = Some (rs, iv) /\ length rs = 11%nat /\ iv_from iv < 28800000 /\ 28800060 < iv_to iv.
Proof.
  split; [vm_compute; discriminate|]. do 2 eexists. split; [vm_compute; reflexivity|]. vm_compute. repeat split.
Qed.

Print Assumptions C30_search_window.
Print Assumptions C30_extension_grows_within_limits.
Print Assumptions C30_initial_interval.
Print Assumptions C30_search_terminates.
Print Assumptions C30_results_within_limits.
Print Assumptions C30_slow_direct_never_returned.
Print Assumptions C30_requested_interval_cut_refuted.
Print Assumptions C30_fixed_interval_overflow_refuted.
