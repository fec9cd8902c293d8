(** Lemmas for P_Loaded. *)
From Coq Require Import List ZArith Bool Arith Lia Permutation.
From Verif Require Import Base Time_Model Calendar_Model Raptor_Model Raptor_Spec Routes_Model Routes_Proofs P_Routes Finish_Model P_Finish.
From Verif Require Import Foot_Proofs P_Foot Loaded_Model Loaded_Spec.
From Verif Require Query_Model Foot_Model.
Import ListNotations.
Local Open Scope Z_scope.

(** * Route index *)
Lemma add_stop_route_in ri m v l x : In x (add_stop_route ri m v l) <-> In x (m l) \/ (x = ri /\ place v = l).
Proof.
  unfold add_stop_route. change (Z.to_nat (s_loc (stop_of_value v))) with (place v).
  destruct (m (place v)) as [|y ys] eqn:E.
  - unfold Raptor_Model.upd. destruct (Nat.eqb_spec (place v) l) as [<-|H].
    + rewrite E. cbn. intuition.
    + intuition congruence.
  - destruct (Nat.eqb_spec (last (y :: ys) y) ri) as [E1|E1]; cbn [negb].
    + split; [auto|]. intros [H|[-> <-]]; [exact H|]. rewrite E, <- E1.
      rewrite (app_removelast_last y (l := y :: ys)) at 2 by discriminate. apply in_or_app. right. now left.
    + unfold Raptor_Model.upd. destruct (Nat.eqb_spec (place v) l) as [<-|H].
      * rewrite E, in_app_iff. cbn [In]. intuition.
      * intuition congruence.
Qed.
Lemma add_route_stops_in ri vs : forall m l x,
  In x (add_route_stops m (ri, vs) l) <-> In x (m l) \/ (x = ri /\ exists v, In v vs /\ place v = l).
Proof.
  unfold add_route_stops. cbn [fst snd]. induction vs as [|v vs IH]; intros m l x; cbn [fold_left].
  - split; [auto|]. intros [H|(_ & v & [] & _)]. exact H.
  - rewrite IH, add_stop_route_in. split.
    + intros [[H|[-> H]]|(-> & w & Hw & H)]; auto; right; split; auto; [exists v|exists w]; simpl; auto.
    + intros [H|(-> & w & [->|Hw] & H)]; auto. right. split; auto. eauto.
Qed.
(** The routes of a location are exactly those with a stop there. *)
Lemma location_routes_in stops l ri :
  In ri (build_location_routes stops l) <-> exists vs v, nth_error stops ri = Some vs /\ In v vs /\ place v = l.
Proof.
  unfold build_location_routes.
  assert (G : forall stops n m x, In x (fold_left add_route_stops (combine (seq n (length stops)) stops) m l) <->
     In x (m l) \/ exists i vs v, x = (n + i)%nat /\ nth_error stops i = Some vs /\ In v vs /\ place v = l).
  { clear stops ri. induction stops as [|vs stops IH]; intros n m x; cbn [length seq combine fold_left].
    - split; [auto|]. intros [H|(i & vs & v & _ & H & _)]; [exact H|]. destruct i; discriminate.
    - rewrite IH, add_route_stops_in. split.
      + intros [[H|(-> & v & Hv & H)]|(i & ws & v & -> & H)]; auto; right.
        * exists 0%nat, vs, v. rewrite Nat.add_0_r. auto.
        * exists (S i), ws, v. split; [lia|]. auto.
      + intros [H|(i & ws & v & -> & Hi & Hv & H)]; auto. destruct i as [|i]; cbn in Hi.
        * injection Hi as <-. left. right. split; [lia|]. eauto.
        * right. exists i, ws, v. split; [lia|]. auto. }
  rewrite G. split.
  - intros [[]|(i & vs & v & -> & H)]. exists vs, v. exact H.
  - intros (vs & v & H). right. exists ri, vs, v. split; [lia|]. exact H.
Qed.

(** * Registered traffic days *)
Lemma nth_snoc {A} (l : list A) x d t : nth t (l ++ [x]) d = if Nat.eqb t (length l) then x else nth t l d.
Proof.
  destruct (Nat.eqb_spec t (length l)) as [->|H].
  - rewrite app_nth2, Nat.sub_diag by lia. reflexivity.
  - destruct (Nat.lt_ge_cases t (length l)); [now rewrite app_nth1|]. rewrite (nth_overflow l) by lia. apply nth_overflow. rewrite app_length. cbn. lia.
Qed.
Definition day_range (b : bitfield) : Prop := forall d, b d = true -> 0 <= d < 512.
Record days_ok (l : list bitfield) (st : days_state) : Prop := mk_days_ok {
  dk_len : length (snd st) = length l;
  dk_first : exists bs, fst (fst st) = bf_empty :: bs;
  dk_range : Forall day_range (fst (fst st));
  dk_known : forall b i, In (b, i) (snd (fst st)) -> nth_error (fst (fst st)) i = Some b;
  dk_idx : Forall (fun i => (i < length (fst (fst st)))%nat) (snd st);
  dk_bits : forall t b d, nth_error l t = Some b -> nth (nth t (snd st) 0%nat) (fst (fst st)) bf_empty d = b d }.
Lemma register_days_ok l st b : day_range b -> days_ok l st -> days_ok (l ++ [b]) (register_days st b).
Proof.
  intros Hb [H1 [bs H2] H3 H4 H5 H6]. destruct st as [[bfs known] days]. cbn [fst snd] in *. unfold register_days.
  destruct (find (fun e => bfEq (fst e) b) known) as [[b' i]|] eqn:E.
  - apply find_some in E as [Ein Eq]. cbn [fst] in Eq. rewrite bfEq_spec in Eq. assert (Hi := H4 _ _ Ein).
    assert (Eb : forall d, b' d = b d).
    { intros d. assert (Rb' : day_range b') by (rewrite Forall_forall in H3; apply H3; eapply nth_error_In; eauto).
      destruct (b' d) eqn:E1; [rewrite <- (Eq d), E1; auto|]. destruct (b d) eqn:E2; auto. rewrite <- (Eq d) in E2 by auto. congruence. }
    constructor; cbn [fst snd].
    + rewrite !app_length, H1. reflexivity.
    + eauto.
    + exact H3.
    + exact H4.
    + rewrite Forall_app. split; [exact H5|]. constructor; [|constructor]. apply nth_error_Some. congruence.
    + intros t c d Ht. rewrite nth_snoc, H1. destruct (Nat.eqb_spec t (length l)) as [->|Hn].
      * rewrite nth_error_app2, Nat.sub_diag in Ht by lia. injection Ht as <-. rewrite (nth_error_nth _ _ _ Hi). apply Eb.
      * apply H6. assert (t < length (l ++ [b]))%nat by (apply nth_error_Some; congruence). rewrite app_length in H. cbn in H.
        rewrite nth_error_app1 in Ht by lia. exact Ht.
  - constructor; cbn [fst snd].
    + rewrite !app_length, H1. reflexivity.
    + exists (bs ++ [b]). now rewrite H2.
    + rewrite Forall_app. auto.
    + intros c i Hin. apply in_app_or in Hin as [Hin|[[= <- <-]|[]]].
      * rewrite nth_error_app1; [auto|]. apply nth_error_Some. rewrite (H4 _ _ Hin). discriminate.
      * rewrite nth_error_app2, Nat.sub_diag by lia. reflexivity.
    + rewrite Forall_app, app_length. cbn [length]. split; [|constructor; [lia|constructor]]. eapply Forall_impl; [|exact H5]. cbn. intros. lia.
    + intros t c d Ht. rewrite (nth_snoc days), H1. destruct (Nat.eqb_spec t (length l)) as [->|Hn].
      * rewrite nth_error_app2, Nat.sub_diag in Ht by lia. injection Ht as <-. rewrite nth_snoc, Nat.eqb_refl. reflexivity.
      * assert (t < length (l ++ [b]))%nat by (apply nth_error_Some; congruence). rewrite app_length in H. cbn in H.
        rewrite nth_error_app1 in Ht by lia. rewrite app_nth1; [apply H6, Ht|].
        rewrite Forall_forall in H5. apply H5, nth_In. lia.
Qed.
Lemma register_all_ok l : Forall day_range l -> days_ok l (register_all_days l).
Proof.
  intros H. unfold register_all_days.
  assert (G : forall l l0 st, Forall day_range l -> days_ok l0 st -> days_ok (l0 ++ l) (fold_left register_days l st)).
  { clear. induction l as [|b l IH]; intros l0 st H Hst; cbn [fold_left]; [now rewrite app_nil_r|].
    inversion H; subst. replace (l0 ++ b :: l) with ((l0 ++ [b]) ++ l) by now rewrite <- app_assoc. apply IH; auto. now apply register_days_ok. }
  apply (G l [] ([bf_empty], [], [])); auto. constructor; cbn [fst snd]; auto.
  - now exists [].
  - constructor; [|constructor]. intros d E. discriminate.
  - intros b i [].
  - intros [|t] b d E; discriminate.
Qed.

(** * The days after loading and after the removal of duplicates *)
Lemma nth_map_seq {A} (f : nat -> A) n r d : (r < n)%nat -> nth r (map f (seq 0 n)) d = f r.
Proof.
  intros H. rewrite (nth_indep _ d (f 0%nat)) by now rewrite map_length, seq_length. rewrite map_nth, seq_nth by auto. reflexivity.
Qed.
Lemma nth_error_map_seq {A} (f : nat -> A) n r x : nth_error (map f (seq 0 n)) r = Some x -> (r < n)%nat /\ x = f r.
Proof.
  intros H. assert (Hl : (r < n)%nat) by (apply nth_error_Some_lt in H || (assert (r < length (map f (seq 0 n)))%nat by (apply nth_error_Some; congruence); now rewrite map_length, seq_length in H0)).
  split; auto. apply (nth_error_nth _ _ x) in H. now rewrite nth_map_seq in H.
Qed.
Lemma nth_error_map_seq_from {A} (f : nat -> A) from n j : (j < n)%nat -> nth_error (map f (seq from n)) j = Some (f (from + j)%nat).
Proof.
  intros H. apply map_nth_error. rewrite (nth_error_nth' _ 0%nat) by now rewrite seq_length. now rewrite seq_nth.
Qed.

Section Load.
  Variable su : setup.
  Variable ins : list (route_key * service).
  Hypothesis OK : input_ok su ins.
  Let rs := routes_of (add_all ins).
  Let a := write_routes no_arrays rs.
  Let fr := froutes a.
  Let ev := read_event a.

  Lemma ins_fits : forall k s, In (k, s) ins -> fits k s.
  Proof. intros k s H. apply (vo_fits _ _ _ (io_vehicles _ _ OK k s H)). Qed.

  (** A written route and its vehicles are vehicles of the input with the key of the route. *)
  Lemma route_vehicle_in r k svs s : nth_error rs r = Some (k, svs) -> In s svs -> In (k, s) ins.
  Proof.
    intros Hr Hs. assert (Hin := nth_error_In _ _ Hr). unfold rs, routes_of in Hin. apply in_flat_map in Hin.
    destruct Hin as ([k' rr] & Hin1 & Hin2). apply in_map_iff in Hin2. destruct Hin2 as (svs' & Heq & Hin2). injection Heq as <- <-.
    destruct (add_all_ok ins ins_fits) as [Hok Hp]. cbn [fst snd] in *.
    assert (H := services_for_in _ _ _ _ _ (mo_nodup _ Hok) Hin1 Hin2 Hs).
    apply (Permutation_in _ (Hp k')) in H. apply in_map_iff in H. destruct H as ([k2 s2] & <- & H).
    apply filter_In in H. destruct H as [Ha Hb]. cbn in Hb. destruct (route_key_eq_dec k' k2); [subst; exact Ha|discriminate].
  Qed.
  Lemma input_vehicle_written k s : In (k, s) ins -> exists r svs j, nth_error rs r = Some (k, svs) /\ nth_error svs j = Some s.
  Proof.
    intros H. destruct (add_all_ok ins ins_fits) as [Hok Hp].
    assert (Hin : In s (services_for k (add_all ins))).
    { apply (Permutation_in _ (Permutation_sym (Hp k))). apply in_map_iff. exists (k, s). split; auto. apply filter_In. split; auto. cbn. destruct (route_key_eq_dec k k); tauto. }
    unfold services_for in Hin. apply in_flat_map in Hin. destruct Hin as ([k' rr] & H1 & H2). cbn [fst snd] in H2.
    destruct (route_key_eq_dec k k') as [<-|]; [|destruct H2]. apply in_concat in H2. destruct H2 as (svs & H2 & H3).
    assert (Hrs : In (k, svs) rs) by (unfold rs, routes_of; apply in_flat_map; exists (k, rr); split; auto; cbn; apply in_map_iff; eauto).
    apply In_nth_error in Hrs as [r Hr]. apply In_nth_error in H3 as [j Hj]. eauto.
  Qed.
  Lemma route_nonempty r k svs : nth_error rs r = Some (k, svs) -> exists s, In s svs.
  Proof.
    intros Hr. assert (Hin := nth_error_In _ _ Hr). unfold rs, routes_of in Hin. apply in_flat_map in Hin.
    destruct Hin as ([k' rr] & Hin1 & Hin2). apply in_map_iff in Hin2. destruct Hin2 as (svs' & Heq & Hin2). injection Heq as <- <-.
    destruct (add_all_ok ins ins_fits) as [Hok Hp]. destruct (mo_sorted _ Hok _ _ _ Hin1 Hin2) as [Hne _].
    destruct svs' as [|s0 svs']; [congruence|]. exists s0. now left.
  Qed.
  Lemma days_written : a_transport_days a = flat_map (fun kr => map sv_days (snd kr)) rs.
  Proof.
    unfold a, write_routes.
    assert (G : forall qs a0, a_transport_days (fold_left (fun a kr => write_route a (fst kr) (snd kr)) qs a0)
       = a_transport_days a0 ++ flat_map (fun kr => map sv_days (snd kr)) qs).
    { clear. induction qs as [|[k svs] qs IH]; intros a0; cbn [fold_left flat_map]; [now rewrite app_nil_r|].
      rewrite IH. unfold write_route. cbn [fst snd a_transport_days]. now rewrite <- app_assoc. }
    apply (G rs no_arrays).
  Qed.
  Lemma service_day_range k s : In (k, s) ins -> day_range (sv_days s).
  Proof.
    intros H d Hd. destruct (io_vehicles _ _ OK k s H) as [(H2 & HL & HT) _ _ _ HD _].
    assert (Hin : In (nth 0 (sv_times s) 0) (sv_times s)) by (apply nth_In; lia).
    destruct (HD d _ Hd Hin) as [A B]. assert (0 <= nth 0 (sv_times s) 0 / 1440) by (apply Z.div_pos; auto; lia). lia.
  Qed.
  Lemma all_days_range : Forall day_range (a_transport_days a).
  Proof.
    rewrite days_written. apply Forall_forall. intros b Hb. apply in_flat_map in Hb. destruct Hb as ([k svs] & H1 & H2). cbn in H2.
    apply in_map_iff in H2. destruct H2 as (s & <- & Hs). apply In_nth_error in H1 as [r Hr]. eapply service_day_range, route_vehicle_in; eauto.
  Qed.
  Lemma loaded_tt_ok : tt_ok (loaded_days su a) /\ length (dt_days (loaded_days su a)) = length (a_transport_days a) /\
    forall t b, nth_error (a_transport_days a) t = Some b -> forall d, is_transport_active (loaded_days su a) t d = b d.
  Proof.
    assert (D := register_all_ok _ all_days_range). unfold loaded_days. destruct (register_all_days (a_transport_days a)) as [[bfs known] days].
    destruct D as [H1 [bs H2] H3 H4 H5 H6]. cbn [fst snd] in *. split; [|split].
    - constructor; cbn [dt_bitfields dt_days].
      + intros bf d Hin Hd. rewrite Forall_forall in H3. apply (H3 bf Hin d Hd).
      + intros d. now rewrite H2.
      + intros i Hi. rewrite Forall_forall in H5. auto.
    - exact H1.
    - intros t b Ht d. unfold Finish_Model.is_transport_active, bf_test, dt_bits. cbn [dt_bitfields dt_days]. now apply H6.
  Qed.

  Lemma written r k svs : nth_error rs r = Some (k, svs) ->
    exists t0 x0, route_at a r k svs t0 x0 /\ (t0 + length svs <= length (a_transport_days a))%nat /\
      (x0 + length (route_times (length (rk_stops k)) svs) <= length (a_stop_times a))%nat.
  Proof. intros H. destruct (ao_at _ _ (write_routes_ok rs) _ _ _ H) as (t0 & x0 & H1 & H2 & H3). eauto. Qed.
  Lemma n_routes : length (a_route_stops a) = length rs.
  Proof. apply (ao_n1 _ _ (write_routes_ok rs)). Qed.
  Lemma froute_at r : Finish_Model.route fr r = if (r <? length rs)%nat then froute_of a r else mk_froute [] 0 0.
  Proof.
    unfold Finish_Model.route, fr, froutes. rewrite n_routes. destruct (Nat.ltb_spec r (length rs)).
    - apply nth_map_seq. auto.
    - apply nth_overflow. rewrite map_length, seq_length. auto.
  Qed.
  Lemma froutes_ok : routes_ok fr (loaded_days su a).
  Proof.
    intros r. rewrite froute_at. destruct loaded_tt_ok as (_ & -> & _). destruct (Nat.ltb_spec r (length rs)) as [H|H]; [|cbn; lia].
    destruct (nth_error rs r) as [[k svs]|] eqn:E; [|apply nth_error_None in E; lia].
    destruct (written _ _ _ E) as (t0 & x0 & Hat & Ht & Hx). unfold froute_of. cbn [fr_to fr_seq].
    rewrite (nth_error_nth _ _ _ (ra_range _ _ _ _ _ _ Hat)), (nth_error_nth _ _ _ (ra_stops _ _ _ _ _ _ Hat)). cbn [snd]. split; [exact Ht|].
    rewrite map_length. destruct (route_nonempty _ _ _ E) as [s Hs]. apply (vo_size _ _ _ (io_vehicles _ _ OK k s (route_vehicle_in _ _ _ _ E Hs))).
  Qed.
  Lemma merged_kept : kept (su_locs su) fr ev (loaded_days su a) (merged_days su a).
  Proof.
    unfold merged_days, remove_duplicates. destruct loaded_tt_ok as (T & _ & _). assert (R := froutes_ok).
    set (tt0 := loaded_days su a) in *.
    generalize (duplicate_pairs (su_n su) (su_locs su) (su_src su) (su_intra su) (su_inter su)) as pairs. intros pairs.
    assert (G : forall st, kept (su_locs su) fr ev tt0 st -> kept (su_locs su) fr ev tt0
      (fold_left (fun tt p => fst (find_duplicates (su_locs su) fr (build_location_routes (a_route_stops a)) ev tt (fst p) (snd p))) pairs st)).
    { induction pairs as [|p ps IH]; intros st Hst; cbn [fold_left]; auto. apply IH. eapply kept_trans; [exact Hst|].
      apply find_duplicates_kept; [apply Hst|]. destruct Hst as (_ & E & _). intros r. rewrite E. apply R. }
    apply G. now apply kept_refl.
  Qed.
  (** Without a pair of locations to merge the days are those of the input. *)
  Lemma merged_off : nothing_to_merge su -> merged_days su a = loaded_days su a.
  Proof.
    intros H. unfold merged_days. replace (duplicate_pairs _ _ _ _ _) with (@nil (nat * nat)); [reflexivity|]. symmetry.
    unfold duplicate_pairs. destruct (su_intra su || su_inter su); auto.
    assert (F : forall (f : nat -> list (nat * nat)) l, (forall x, In x l -> f x = []) -> flat_map f l = []).
    { clear. intros f l. induction l as [|x l IH]; intros Hf; [reflexivity|]. cbn [flat_map]. rewrite (Hf x) by now left. cbn [app]. apply IH. intros y Hy. apply Hf. now right. }
    apply F. intros l _. destruct (su_src su l) as [sl|] eqn:El; [|reflexivity]. apply F. intros e He. destruct (su_src su e) as [se|] eqn:Ee; [|reflexivity].
    destruct (H l e sl se He El Ee) as [H1 H2]. destruct (Nat.eqb_spec sl se) as [E|E].
    - rewrite (H1 E). reflexivity.
    - rewrite (H2 E). cbn. now rewrite andb_false_r.
  Qed.

  (** ** Routes and vehicles of the final timetable *)
  Lemma final_route_nth ri r : nth_error (map (final_route su a) (seq 0 (length (a_route_stops a)))) ri = Some r ->
    exists k svs t0 x0, nth_error rs ri = Some (k, svs) /\ route_at a ri k svs t0 x0 /\
      (t0 + length svs <= length (a_transport_days a))%nat /\
      (x0 + length (route_times (length (rk_stops k)) svs) <= length (a_stop_times a))%nat /\
      r = final_route su a ri /\ r_stops r = map stop_of_value (rk_stops k) /\ r_clasz r = rk_clasz k.
  Proof.
    intros H. apply nth_error_map_seq in H as [Hlt ->]. rewrite n_routes in Hlt.
    destruct (nth_error rs ri) as [[k svs]|] eqn:E; [|apply nth_error_None in E; lia].
    destruct (written _ _ _ E) as (t0 & x0 & Hat & Ht & Hx). exists k, svs, t0, x0. do 5 (split; [auto|]).
    unfold final_route, loaded_route. cbn [r_stops r_clasz].
    now rewrite (nth_error_nth _ _ _ (ra_stops _ _ _ _ _ _ Hat)), (nth_error_nth _ _ _ (ra_clasz _ _ _ _ _ _ Hat)).
  Qed.
  Lemma final_vehicle_nth ri k svs t0 x0 j v : route_at a ri k svs t0 x0 -> nth_error (r_vehicles (final_route su a ri)) j = Some v <->
    (j < length svs)%nat /\ v = final_vehicle su a ri (t0 + j) (length (rk_stops k)).
  Proof.
    intros [G1 G2 G3 G4 G5 G6 G7 G8 G9]. unfold final_route. cbn [r_vehicles].
    rewrite (nth_error_nth _ _ _ G5), (nth_error_nth _ _ _ G1). cbn [fst snd].
    replace (t0 + length svs - t0)%nat with (length svs) by lia. split.
    - intros H. assert (Hj : (j < length svs)%nat).
      { assert (Hx : nth_error (map (fun t => final_vehicle su a ri t (length (rk_stops k))) (seq t0 (length svs))) j <> None) by congruence.
        apply nth_error_Some in Hx. now rewrite map_length, seq_length in Hx. }
      split; auto. rewrite nth_error_map_seq_from in H by auto. congruence.
    - intros [Hj ->]. now apply nth_error_map_seq_from.
  Qed.
  Lemma loaded_vehicle_iff ri k svs t0 x0 j v : route_at a ri k svs t0 x0 -> nth_error (r_vehicles (loaded_route a ri)) j = Some v <->
    (j < length svs)%nat /\ v = loaded_vehicle a ri (t0 + j) (length (rk_stops k)).
  Proof.
    intros [G1 G2 G3 G4 G5 G6 G7 G8 G9]. unfold loaded_route. cbn [r_vehicles].
    rewrite (nth_error_nth _ _ _ G5), (nth_error_nth _ _ _ G1). cbn [fst snd].
    replace (t0 + length svs - t0)%nat with (length svs) by lia. split.
    - intros H. assert (Hj : (j < length svs)%nat).
      { assert (Hx : nth_error (map (fun t => loaded_vehicle a ri t (length (rk_stops k))) (seq t0 (length svs))) j <> None) by congruence.
        apply nth_error_Some in Hx. now rewrite map_length, seq_length in Hx. }
      split; auto. rewrite nth_error_map_seq_from in H by auto. congruence.
    - intros [Hj ->]. now apply nth_error_map_seq_from.
  Qed.
  Lemma final_days_bits ri t n d : (t < length (a_transport_days a))%nat -> (ri < length rs)%nat ->
    v_days (final_vehicle su a ri t n) d = Finish_Model.is_transport_active (merged_days su a) t d.
  Proof.
    intros Ht Hr. unfold final_vehicle. cbn [v_days]. unfold final_days.
    destruct merged_kept as (T & Hl & _). destruct loaded_tt_ok as (_ & Hl0 & _).
    assert (Hne : fr <> []).
    { unfold fr, froutes. intros E. apply (f_equal (@length _)) in E. rewrite map_length, seq_length, n_routes in E. cbn in E. lia. }
    fold fr ev. rewrite (C32_vehicle_days_unchanged fr ev (merged_days su a) t T) by (auto; lia). reflexivity.
  Qed.
  Lemma final_event ri k svs t0 x0 j sv s e : route_at a ri k svs t0 x0 ->
    (x0 + length (route_times (length (rk_stops k)) svs) <= length (a_stop_times a))%nat ->
    nth_error rs ri = Some (k, svs) -> nth_error svs j = Some sv -> (s < length (rk_stops k))%nat ->
    let m := nth (clamped_position (length (rk_stops k)) s e) (sv_times sv) 0 in
    v_ev (final_vehicle su a ri (t0 + j) (length (rk_stops k))) s e = mk_delta (m / 1440) (m mod 1440) /\ 0 <= m <= 32767 /\ In m (sv_times sv).
  Proof.
    intros Hat Hx Hr Hj Hs m. assert (Hin : In (k, sv) ins) by (eapply route_vehicle_in; eauto; eapply nth_error_In; eauto).
    destruct (io_vehicles _ _ OK k sv Hin) as [(H2 & HL & HT) [HC HM] _ _ _ _].
    assert (Hlim := io_size _ _ OK). change (2 ^ 32) with 4294967296 in Hlim. fold rs a in Hlim.
    assert (Hc := clamped_position_lt _ s e H2 Hs).
    assert (I1 : In m (sv_times sv)) by (apply nth_In; lia).
    split; [|split; [split; auto|exact I1]]. change (v_ev (final_vehicle su a ri (t0 + j) (length (rk_stops k))) s e) with (v_ev (loaded_vehicle a ri (t0 + j) (length (rk_stops k))) s e).
    unfold a in Hat, Hx |- *. rewrite (loaded_event rs ri k svs t0 x0 j sv s e Hat Hx Hlim H2 Hs Hj).
    apply delta_of_minutes_small. split; auto.
  Qed.
End Load.
