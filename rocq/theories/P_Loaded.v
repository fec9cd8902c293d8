(** C51: from the vehicles of the input to the timetable the search works on. *)
From Coq Require Import List ZArith Bool Arith Lia Permutation.
From Verif Require Import Base Time_Model Calendar_Model Raptor_Model Raptor_Spec Raptor_Final Routes_Model Routes_Proofs P_Routes Finish_Model P_Finish.
From Verif Require Import Foot_Proofs P_Foot Loaded_Model Loaded_Spec Loaded_Proofs Full_Model Full_Spec P_LowerBounds Search_Model P_Search P_Full.
From Verif Require Query_Model Foot_Model Dijkstra_Model.
Import ListNotations.
Local Open Scope Z_scope.

Lemma dm m : m / 1440 * 1440 + m mod 1440 = m.
Proof. pose proof (Z.div_mod m 1440). lia. Qed.
(** Positions of the times in the list dep(0), arr(1), dep(1), ... *)
Lemma position_dep n s : (S s < n)%nat -> clamped_position n s kDep = (2 * s)%nat.
Proof. intros H. unfold clamped_position, clamp_ev. destruct (Nat.leb_spec (n - 1) s); [lia|]. reflexivity. Qed.
Lemma position_arr n s : (0 < s)%nat -> clamped_position n s kArr = (2 * s - 1)%nat.
Proof. intros H. unfold clamped_position, clamp_ev. destruct (Nat.eqb_spec s 0); [lia|]. reflexivity. Qed.
Lemma position_mono n s s' e e' : (2 <= n)%nat -> (s < s' < n)%nat -> (s' = S s -> e = kDep \/ e' = kArr \/ True) ->
  (clamped_position n s e <= clamped_position n s' e')%nat.
Proof.
  intros Hn Hs _. unfold clamped_position, clamp_ev. destruct e, e'; 
  repeat match goal with |- context[Nat.eqb ?x ?y] => destruct (Nat.eqb_spec x y) | |- context[Nat.leb ?x ?y] => destruct (Nat.leb_spec x y) end; cbn; lia.
Qed.

(** More fuel does not change the footpaths. *)
Lemma loop_mono edges mx : forall fuel fuel' dd q D, Dijkstra_Model.loop edges mx fuel dd q = Dijkstra_Model.Done D -> (fuel <= fuel')%nat ->
  Dijkstra_Model.loop edges mx fuel' dd q = Dijkstra_Model.Done D.
Proof.
  induction fuel as [|f IH]; intros fuel' dd q D H Hf.
  - simpl in H. destruct (Dial_Model.dial_empty q) eqn:Ee; [|discriminate]. destruct fuel'; simpl; rewrite Ee; auto.
  - destruct fuel' as [|f']; [lia|]. simpl in *. destruct (Dial_Model.dial_empty q); auto.
    destruct (Dial_Model.dial_top q) as [[l q1]|]; auto. destruct (Dial_Model.dial_pop q1) as [q2|]; auto.
    destruct (_ <? _); [apply IH; auto; lia|].
    destruct (fold_left _ _ _) as [[d' q3]|]; auto. apply IH; auto; lia.
Qed.
Lemma opt_concat_map_mono {A B} (f g : A -> option (list B)) l r : (forall x y, f x = Some y -> g x = Some y) ->
  Foot_Model.opt_concat (map f l) = Some r -> Foot_Model.opt_concat (map g l) = Some r.
Proof.
  intros H. unfold Foot_Model.opt_concat. revert r. induction l as [|x l IH]; intros r; cbn [map fold_right]; [auto|].
  destruct (f x) eqn:E; [|discriminate]. rewrite (H _ _ E).
  destruct (fold_right _ _ (map f l)) as [y|]; [|discriminate]. rewrite (IH y eq_refl). auto.
Qed.
Lemma build_footpaths_mono n raw ttime max_len beeline fuel fuel' res :
  Foot_Model.build_footpaths n raw ttime max_len beeline fuel = Some res -> (fuel <= fuel')%nat ->
  Foot_Model.build_footpaths n raw ttime max_len beeline fuel' = Some res.
Proof.
  intros H Hf. unfold Foot_Model.build_footpaths, Foot_Model.connect_components in *.
  destruct (Foot_Model.opt_concat (map (Foot_Model.process_component raw ttime max_len beeline fuel) _)) as [rest|] eqn:E; [|discriminate].
  rewrite (opt_concat_map_mono (Foot_Model.process_component raw ttime max_len beeline fuel) (Foot_Model.process_component raw ttime max_len beeline fuel') _ rest); [exact H| |exact E].
  intros m y. unfold Foot_Model.process_component. destruct (Foot_Model.build_component_graph raw ttime m) as [g|]; [|discriminate].
  apply opt_concat_map_mono. intros k ws. unfold Foot_Model.node_dists.
  destruct (Dial_Model.dial_push _ _ _) as [pq|]; [|discriminate].
  destruct (Dijkstra_Model.loop g max_len fuel _ pq) eqn:El; try discriminate. rewrite (loop_mono _ _ _ _ _ _ _ El Hf). auto.
Qed.
Lemma walk_nonneg n raw ttime a b d : graph_ok n raw ttime -> Foot_Proofs.walk raw ttime a b d -> 0 <= d.
Proof.
  intros OK. induction 1 as [|b c d w _ IH H]; [lia|]. pose proof (go_range _ _ _ OK _ _ _ H) as (_ & _ & R).
  unfold Foot_Model.max3. lia.
Qed.

Section C51.
  Variable su : setup.
  Variable ins : list (route_key * service).
  Variable fuel : nat.
  Variable tt : timetable.
  Hypothesis OK : input_ok su ins.
  Hypothesis LOAD : load su ins fuel = Some tt.
  Let rs := routes_of (add_all ins).
  Let a := write_routes no_arrays rs.
  Variable P : params.
  Hypothesis HP : p_tt P = tt.

  Lemma load_parts : exists out inn,
    Foot_Model.build_footpaths (su_n su) (su_links su) (su_ttime su) (su_max_foot su) (su_beeline su) fuel = Some (out, inn) /\
    tt_n_locations tt = su_n su /\ tt_routes tt = map (final_route su a) (seq 0 (length (a_route_stops a))) /\
    tt_location_routes tt = build_location_routes (a_route_stops a) /\ tt_transfer_time tt = su_ttime su /\
    tt_footpaths_out tt = out /\ tt_footpaths_in tt = inn /\
    tt_route_active tt = (fun r day => Finish_Model.is_route_active (final_days su a) r day).
  Proof using LOAD. clear HP P.
    unfold load, final_timetable in LOAD. destruct (Foot_Model.build_footpaths _ _ _ _ _ _) as [[out inn]|]; [|discriminate].
    injection LOAD as <-. exists out, inn. cbn. auto 10.
  Qed.

  Lemma route_of ri r : nth_error (tt_routes (p_tt P)) ri = Some r ->
    exists k svs t0 x0, nth_error rs ri = Some (k, svs) /\ route_at a ri k svs t0 x0 /\
      (t0 + length svs <= length (a_transport_days a))%nat /\
      (x0 + length (route_times (length (rk_stops k)) svs) <= length (a_stop_times a))%nat /\
      r = final_route su a ri /\ r_stops r = map stop_of_value (rk_stops k) /\ r_clasz r = rk_clasz k.
  Proof.
    rewrite HP. destruct load_parts as (out & inn & _ & _ & -> & _). intros H. apply (final_route_nth su ins) in H. exact H.
  Qed.
  (** A vehicle of a route: its input vehicle, times and days. *)
  Lemma vehicle_of ri r j v : nth_error (tt_routes (p_tt P)) ri = Some r -> nth_error (r_vehicles r) j = Some v ->
    exists k svs t0 sv, nth_error rs ri = Some (k, svs) /\ nth_error svs j = Some sv /\ In (k, sv) ins /\
      r = final_route su a ri /\ r_stops r = map stop_of_value (rk_stops k) /\ r_clasz r = rk_clasz k /\
      (forall s e, (s < length (rk_stops k))%nat ->
         let m := nth (clamped_position (length (rk_stops k)) s e) (sv_times sv) 0 in
         v_ev v s e = mk_delta (m / 1440) (m mod 1440) /\ 0 <= m <= 32767 /\ In m (sv_times sv)) /\
      (forall d, v_days v d = Finish_Model.is_transport_active (merged_days su a) (t0 + j) d) /\
      (fr_from (Finish_Model.route (froutes a) ri) <= t0 + j < fr_to (Finish_Model.route (froutes a) ri))%nat /\
      v = final_vehicle su a ri (t0 + j) (length (rk_stops k)) /\
      (forall d, Finish_Model.is_transport_active (loaded_days su a) (t0 + j) d = sv_days sv d).
  Proof.
    intros Hr Hv. destruct (route_of _ _ Hr) as (k & svs & t0 & x0 & E & Hat & Ht & Hx & -> & Hst & Hcl).
    apply (final_vehicle_nth su ins ri k svs t0 x0 j v Hat) in Hv as [Hj ->].
    destruct (nth_error svs j) as [sv|] eqn:Ej; [|apply nth_error_None in Ej; lia].
    exists k, svs, t0, sv. split; [exact E|]. split; [exact Ej|].
    assert (Hin : In (k, sv) ins) by (eapply (route_vehicle_in su ins OK); eauto; eapply nth_error_In; eauto).
    do 4 (split; [auto|]).
    assert (Hri : (ri < length rs)%nat) by (apply nth_error_Some; congruence).
    split; [intros s e Hs; apply (final_event su ins OK ri k svs t0 x0 j sv s e); auto|].
    split; [intros d; apply (final_days_bits su ins OK); auto; fold rs a; lia|].
    split; [|split; [reflexivity|]].
    - assert (F := froute_at ins ri). cbv zeta in F. fold rs a in F.
      rewrite F. destruct (Nat.ltb_spec ri (length rs)); [|lia]. unfold froute_of. cbn [fr_from fr_to].
      rewrite (nth_error_nth _ _ _ (ra_range _ _ _ _ _ _ Hat)). cbn [fst snd]. lia.
    - intros d. destruct (loaded_tt_ok su ins OK) as (_ & _ & H). apply H. apply (ra_days _ _ _ _ _ _ Hat). exact Ej.
  Qed.
  Lemma vehicle_input ri r j v : nth_error (tt_routes (p_tt P)) ri = Some r -> nth_error (r_vehicles r) j = Some v ->
    forall d, v_days v d = true -> exists k svs sv, nth_error rs ri = Some (k, svs) /\ nth_error svs j = Some sv /\ sv_days sv d = true.
  Proof.
    intros Hr Hv d Hd. destruct (vehicle_of _ _ _ _ Hr Hv) as (k & svs & t0 & sv & E & Ej & Hin & _ & _ & _ & _ & Hdays & _ & _ & Hl).
    exists k, svs, sv. do 2 (split; [auto|]). rewrite <- Hl. destruct (merged_kept su ins OK) as (_ & _ & K & _). apply K. fold rs a. rewrite <- Hdays. exact Hd.
  Qed.

  Lemma static : static_only P.
  Proof. intros ri r Hr. destruct (route_of _ _ Hr) as (k & svs & t0 & x0 & E & Hat & Ht & Hx & -> & _). reflexivity. Qed.
  Lemma columns : columns_sorted P /\ all_vehicles_wf P.
  Proof.
    set (P0 := mk_params (p_fwd P) (mk_tt 0 (loaded_routes a) (fun _ => []) (fun _ => 0) (fun _ => []) (fun _ => []) (fun _ _ => false))
       (p_is_dest P) (p_dist_to_end P) (p_end P) (p_lb P) (p_base P) (p_allowed_clasz P) (p_require P) (p_adjust P)).
    assert (Hin : forall k s, In (k, s) ins -> fits k s /\ chronological s).
    { intros k s H. destruct (io_vehicles _ _ OK k s H). auto. }
    destruct (C14_loaded_timetable_ok P0 ins Hin (io_size _ _ OK) eq_refl) as [C W].
    assert (L0 : forall ri k svs, nth_error rs ri = Some (k, svs) -> nth_error (loaded_routes a) ri = Some (loaded_route a ri)).
    { intros ri k svs H. unfold loaded_routes. apply (nth_error_map_seq_from (loaded_route a) 0). assert (N := n_routes ins). cbv zeta in N. fold rs a in N. rewrite N. apply nth_error_Some. congruence. }
    assert (Tr : forall ri r j v, nth_error (tt_routes (p_tt P)) ri = Some r -> nth_error (r_vehicles r) j = Some v ->
      nth_error (loaded_routes a) ri = Some (loaded_route a ri) /\ r_stops (loaded_route a ri) = r_stops r /\
      exists v0, nth_error (r_vehicles (loaded_route a ri)) j = Some v0 /\ v_ev v0 = v_ev v).
    { intros ri r j v Hr Hv. destruct (route_of _ _ Hr) as (k & svs & t0 & x0 & E & Hat & Ht & Hx & -> & Hst & Hcl).
      apply (final_vehicle_nth su ins ri k svs t0 x0 j v Hat) in Hv as [Hj ->]. split; [eapply L0; eauto|]. split; [reflexivity|].
      exists (loaded_vehicle a ri (t0 + j) (length (rk_stops k))). split; [|reflexivity].
      apply (loaded_vehicle_iff ins ri k svs t0 x0 j _ Hat). auto. }
    split.
    - intros ri r i j v w s e Hr Hij Hv Hw Hs. destruct (Tr _ _ _ _ Hr Hv) as (R & S & v0 & V & <-). destruct (Tr _ _ _ _ Hr Hw) as (_ & _ & w0 & W0 & <-).
      apply (C ri (loaded_route a ri) i j v0 w0 s e); auto. now rewrite S.
    - split; [|apply static_rt_ok, static].
      intros ri r v Hr Hv. apply In_nth_error in Hv as [j Hj]. destruct (Tr _ _ _ _ Hr Hj) as (R & S & v0 & V & E).
      assert (X := proj1 W ri (loaded_route a ri) v0 R (nth_error_In _ _ V)). unfold vehicle_wf, event_minutes in *. rewrite S, E in X. exact X.
  Qed.

  Lemma flags ri k svs t0 x0 f sec : route_at a ri k svs t0 x0 -> (f < 4)%nat ->
    length (nth f (rk_flags k) []) = 1%nat \/ length (nth f (rk_flags k) []) = (length (rk_stops k) - 1)%nat ->
    (sec < length (rk_stops k) - 1)%nat -> section_has (final_route su a ri) sec f <-> flag_on k f sec = true.
  Proof.
    intros Hat Hf Hl Hs. unfold section_has, final_route, loaded_route. cbn [r_flag_all r_flag_some r_flag_section].
    rewrite (nth_error_nth _ _ _ (ra_flags _ _ _ _ _ _ Hat)), (nth_error_nth _ _ _ (ra_sections _ _ _ _ _ _ Hat)).
    assert (F1 : nth f (map flag_bits (rk_flags k)) (false, false) = flag_bits (nth f (rk_flags k) [])) by exact (map_nth flag_bits _ [] f).
    assert (F2 : nth f (map flag_sections (rk_flags k)) [] = flag_sections (nth f (rk_flags k) [])) by exact (map_nth flag_sections _ [] f).
    rewrite F1, F2.
    unfold flag_on. set (l := nth f (rk_flags k) []) in *. clearbody l.
    destruct l as [|b [|b' l']] eqn:El.
    - cbn in Hl. lia.
    - destruct b; cbn; intuition discriminate.
    - rewrite <- El. destruct Hl as [Hl|Hl]; [cbn in Hl; lia|]. rewrite <- El in *.
      assert (Hn : nth_error l sec = Some (nth sec l false)) by (apply nth_error_nth'; lia).
      unfold flag_sections, flag_bits. cbn [fst snd].
      destruct (Nat.eqb_spec (length l) 0); [lia|].
      destruct (Nat.eqb_spec (count_true l) (length l)) as [E|E]; cbn [andb negb].
      + rewrite (count_true_all l E sec _ Hn). intuition.
      + destruct (Nat.eqb_spec (count_true l) 0) as [E0|E0]; cbn [andb negb].
        * assert (X := count_true_none l E0 sec _ Hn). rewrite X. intuition discriminate.
        * intuition discriminate.
  Qed.

  Lemma times_of v sv k day s e : 
    v_ev v s e = mk_delta (nth (clamped_position (length (rk_stops k)) s e) (sv_times sv) 0 / 1440) (nth (clamped_position (length (rk_stops k)) s e) (sv_times sv) 0 mod 1440) ->
    event_time P v day s e = (day - p_base P) * 1440 + nth (clamped_position (length (rk_stops k)) s e) (sv_times sv) 0.
  Proof. intros E. unfold event_time. rewrite E. cbn [d_days d_mam]. rewrite <- Z.add_assoc, dm. reflexivity. Qed.

  Lemma ride_sound : forall l tb l' ta, ride_ok P l tb l' ta -> if p_fwd P then offered P ins l tb l' ta else offered P ins l' ta l tb.
  Proof.
    intros l tb l' ta [ri r vi v day s s' st st' Hr Hv [Hd1 Hd2] Hs Hs' Hlt <- <- Hon Hoff Hcl Hfl -> ->].
    destruct (route_of _ _ Hr) as (k' & svs' & t0' & x0' & E' & Hat & _ & _ & _).
    destruct (vehicle_of _ _ _ _ Hr Hv) as (k & svs & t0 & sv & E & Ej & Hin & Er & Hst & Hc & Hev & Hdays & _ & _ & Hl).
    assert (Ek : k' = k) by congruence. subst k'. clear E'.
    assert (Hsv : sv_days sv day = true).
    { rewrite <- Hl. destruct (merged_kept su ins OK) as (_ & _ & K & _). apply K. fold rs a. rewrite <- Hdays. exact Hd2. }
    rewrite Hst in Hs, Hs'. rewrite Hc in Hcl.
    assert (Hn : forall x y, nth_error (map stop_of_value (rk_stops k)) x = Some y -> exists w, nth_error (rk_stops k) x = Some w /\ y = stop_of_value w /\ (x < length (rk_stops k))%nat).
    { intros x y H. rewrite nth_error_map in H. destruct (nth_error (rk_stops k) x) as [w|] eqn:Ew; [|discriminate]. injection H as <-. exists w. split; auto. split; auto. apply nth_error_Some. congruence. }
    destruct (Hn _ _ Hs) as (w & Hw & -> & Lw). destruct (Hn _ _ Hs') as (w' & Hw' & -> & Lw').
    assert (Hflags : forall f sec, (f < 4)%nat -> p_require P f = true -> (Nat.min s s' <= sec < Nat.max s s')%nat -> flag_on k f sec = true).
    { intros f sec Hf Hreq Hsec. apply (flags ri k svs' t0' x0' f sec Hat Hf); [apply (vo_flags _ _ _ (io_vehicles _ _ OK k sv Hin)); auto|lia|].
      rewrite <- Er. apply Hfl; auto. }
    assert (Ht : forall x e, (x < length (rk_stops k))%nat -> event_time P v day x e = (day - p_base P) * 1440 + nth (clamped_position (length (rk_stops k)) x e) (sv_times sv) 0).
    { intros x e Hx. apply times_of. apply (Hev x e Hx). }
    unfold get_on_allowed, get_off_allowed, wheelchair in *. destruct (p_fwd P) eqn:Efwd.
    - apply (offered_intro P ins _ _ _ _ k sv day s s' w w'); auto.
      + intros f sec Hf Hreq Hsec. apply Hflags; auto. lia.
      + rewrite Ht, position_dep by lia. reflexivity.
      + rewrite Ht, position_arr by lia. reflexivity.
    - apply (offered_intro P ins _ _ _ _ k sv day s' s w' w); auto.
      + intros f sec Hf Hreq Hsec. apply Hflags; auto. lia.
      + rewrite Ht, position_dep by lia. reflexivity.
      + rewrite Ht, position_arr by lia. reflexivity.
  Qed.

  Lemma ride_complete : nothing_to_merge su ->
    forall x tx y ty, offered P ins x tx y ty -> if p_fwd P then ride_ok P x tx y ty else ride_ok P y ty x tx.
  Proof.
    intros M1 x tx y ty [k sv day i j vi vj Hin Hday Hij Hi Hj <- <- Hon Hoff Hcl Hfl -> ->].
    destruct (input_vehicle_written su ins OK k sv Hin) as (ri & svs & jv & E & Ej). fold rs in E.
    assert (Hr : nth_error (tt_routes (p_tt P)) ri = Some (final_route su a ri)).
    { rewrite HP. destruct load_parts as (out & inn & _ & _ & -> & _). apply (nth_error_map_seq_from (final_route su a) 0).
      assert (N := n_routes ins). cbv zeta in N. fold rs a in N. rewrite N. apply nth_error_Some. congruence. }
    destruct (route_of _ _ Hr) as (k' & svs' & t0 & x0 & E' & Hat & Ht & Hx & _ & Hst & Hcl').
    assert (k' = k /\ svs' = svs) as [-> ->] by (split; congruence).
    assert (Hv : nth_error (r_vehicles (final_route su a ri)) jv = Some (final_vehicle su a ri (t0 + jv) (length (rk_stops k)))).
    { apply (final_vehicle_nth su ins ri k svs t0 x0 jv _ Hat). split; auto. apply nth_error_Some. congruence. }
    set (v := final_vehicle su a ri (t0 + jv) (length (rk_stops k))) in *.
    destruct (vehicle_of _ _ _ _ Hr Hv) as (k2 & svs2 & t02 & sv2 & E2 & Ej2 & _ & _ & _ & _ & Hev & Hdays & _ & _ & Hl).
    assert (k2 = k /\ svs2 = svs) as [-> ->] by (split; congruence). assert (sv2 = sv) by congruence. subst sv2.
    assert (Li : (i < length (rk_stops k))%nat) by (apply nth_error_Some; congruence).
    assert (Lj : (j < length (rk_stops k))%nat) by (apply nth_error_Some; congruence).
    assert (Hrun : runs_on v day).
    { split; [apply (service_day_range su ins OK k sv Hin day Hday)|]. rewrite Hdays.
      unfold a, rs. rewrite (merged_off su ins M1). fold rs a. rewrite Hl. exact Hday. }
    assert (Htm : forall x e, (x < length (rk_stops k))%nat -> event_time P v day x e = (day - p_base P) * 1440 + nth (clamped_position (length (rk_stops k)) x e) (sv_times sv) 0).
    { intros x e Hx'. apply times_of. apply (Hev x e Hx'). }
    assert (Hsec : forall f sec, (f < 4)%nat -> p_require P f = true -> (i <= sec < j)%nat -> section_has (final_route su a ri) sec f).
    { intros f sec Hf Hreq Hs. apply (flags ri k svs t0 x0 f sec Hat Hf); [apply (vo_flags _ _ _ (io_vehicles _ _ OK k sv Hin)); auto|lia|].
      apply Hfl; auto. }
    assert (Si : nth_error (r_stops (final_route su a ri)) i = Some (stop_of_value vi)) by (rewrite Hst; now apply map_nth_error).
    assert (Sj : nth_error (r_stops (final_route su a ri)) j = Some (stop_of_value vj)) by (rewrite Hst; now apply map_nth_error).
    rewrite <- Hcl' in Hcl.
    destruct (p_fwd P) eqn:Efwd.
    - apply (ride_intro P _ _ _ _ ri (final_route su a ri) jv v day i j (stop_of_value vi) (stop_of_value vj)); auto; unfold get_on_allowed, get_off_allowed, wheelchair; rewrite ?Efwd; auto.
      + intros f sec Hf Hreq Hs. apply Hsec; auto. lia.
      + rewrite Htm, position_dep by lia. reflexivity.
      + rewrite Htm, position_arr by lia. reflexivity.
    - apply (ride_intro P _ _ _ _ ri (final_route su a ri) jv v day j i (stop_of_value vj) (stop_of_value vi)); auto; unfold get_on_allowed, get_off_allowed, wheelchair; rewrite ?Efwd; auto.
      + intros f sec Hf Hreq Hs. apply Hsec; auto. lia.
      + rewrite Htm, position_arr by lia. reflexivity.
      + rewrite Htm, position_dep by lia. reflexivity.
  Qed.

  Lemma route_places ri r st : nth_error (tt_routes (p_tt P)) ri = Some r -> In st (r_stops r) ->
    exists k svs sv w, nth_error rs ri = Some (k, svs) /\ In sv svs /\ In (k, sv) ins /\ In w (rk_stops k) /\ st = stop_of_value w.
  Proof.
    intros Hr Hs. destruct (route_of _ _ Hr) as (k & svs & t0 & x0 & E & Hat & Ht & Hx & -> & Hst & Hcl).
    rewrite Hst in Hs. apply in_map_iff in Hs. destruct Hs as (w & <- & Hw). destruct (route_nonempty su ins OK _ _ _ E) as [sv Hsv].
    exists k, svs, sv, w. do 2 (split; [auto|]). split; [eapply (route_vehicle_in su ins OK); eauto|auto].
  Qed.

  Lemma index : index_ok P.
  Proof.
    split.
    - intros ri r st Hr Hs. destruct (route_places _ _ _ Hr Hs) as (k & svs & sv & w & E & _ & _ & Hw & ->).
      rewrite HP. destruct load_parts as (out & inn & _ & _ & _ & -> & _). apply location_routes_in.
      destruct (route_of _ _ Hr) as (k' & svs' & t0 & x0 & E' & Hat & _). assert (k' = k) by congruence. subst k'.
      exists (rk_stops k), w. split; [apply (ra_stops _ _ _ _ _ _ Hat)|]. auto.
    - intros ri r v day s e Hr Hv [Hd Hrun] Hs. apply In_nth_error in Hv as [j Hj].
      destruct (vehicle_of _ _ _ _ Hr Hj) as (k & svs & t0 & sv & E & Ej & Hin & Er & Hst & Hc & Hev & Hdays & Hrange & Hvv & Hl).
      rewrite Hst, map_length in Hs. destruct (Hev s e Hs) as (Ev & Hm & Hmin).
      assert (Hsv : sv_days sv day = true).
      { rewrite <- Hl. destruct (merged_kept su ins OK) as (_ & _ & K & _). apply K. fold rs a. rewrite <- Hdays. exact Hrun. }
      destruct (vo_days _ _ _ (io_vehicles _ _ OK k sv Hin) day _ Hsv Hmin) as [B1 B2].
      assert (B3 : 0 <= nth (clamped_position (length (rk_stops k)) s e) (sv_times sv) 0 / 1440) by (apply Z.div_pos; lia).
      rewrite Ev. cbn [d_days]. split; [lia|].
      rewrite HP. destruct load_parts as (out & inn & _ & _ & _ & _ & _ & _ & _ & ->).
      destruct (io_vehicles _ _ OK k sv Hin) as [(Hk2 & _) _ _ _ _ _].
      assert (Hce := clamp_ev_exists (length (rk_stops k)) s e Hk2 Hs).
      assert (Hpos : clamped_position (length (rk_stops k)) s e = let (s', e') := clamp_ev (length (rk_stops k)) s e in time_index s' e') by reflexivity.
      assert (Hri : (ri < length rs)%nat) by (apply nth_error_Some; congruence).
      destruct (route_of _ _ Hr) as (k' & svs' & t0' & x0 & E' & Hat & _ & Hx & _). assert (k' = k /\ svs' = svs) as [-> ->] by (split; congruence).
      assert (Ev2 : v_ev v s e = let (s', e') := clamp_ev (length (rk_stops k)) s e in Routes_Model.event_mam a ri (t0 + j) s' e').
      { rewrite Hvv. reflexivity. }
      destruct (clamp_ev (length (rk_stops k)) s e) as [s' e'] eqn:Ece.
      assert (Hact : Finish_Model.is_transport_active (merged_days su a) (t0 + j) day = true) by (rewrite <- Hdays; exact Hrun).
      assert (Hday : d_days (read_event a ri (t0 + j) s' (match e' with kArr => true | kDep => false end)) = nth (clamped_position (length (rk_stops k)) s e) (sv_times sv) 0 / 1440).
      { unfold read_event. replace (if match e' with kArr => true | kDep => false end then kArr else kDep) with e' by (destruct e'; reflexivity).
        rewrite <- Ev2, Ev. reflexivity. }
      rewrite <- Hday. unfold final_days. apply C32_route_days_cover_events.
      + apply (merged_kept su ins OK).
      + assert (N := n_routes ins). cbv zeta in N. fold rs a in N. unfold froutes. rewrite map_length, seq_length, N. exact Hri.
      + exact Hrange.
      + exact Hact.
      + assert (F := froute_at ins ri). cbv zeta in F. fold rs a in F. unfold is_event. rewrite F. destruct (Nat.ltb_spec ri (length rs)); [|lia].
        unfold froute_of. cbn [fr_seq]. rewrite map_length, (nth_error_nth _ _ _ (ra_stops _ _ _ _ _ _ Hat)).
        destruct e'; cbn in Hce; split; lia.
      + rewrite Hday. exact B3.
      + rewrite Hday. lia.
  Qed.

  Lemma fifo_same_days : same_days ins -> fifo P.
  Proof.
    intros SD. destruct columns as [C W]. apply C15_no_overtaking; auto.
    intros ri r v w s e Hr Hv Hw Hs. apply In_nth_error in Hv as [i Hi]. apply In_nth_error in Hw as [j Hj].
    destruct (vehicle_of _ _ _ _ Hr Hi) as (k & svs & t0 & sv & E & Ej & Hin & Er & Hst & Hc & Hev & _).
    destruct (vehicle_of _ _ _ _ Hr Hj) as (k' & svs' & t0' & sw & E' & Ej' & Hin' & _ & _ & _ & Hev' & _).
    assert (k' = k) by congruence. subst k'. rewrite Hst, map_length in Hs.
    destruct (Hev s e Hs) as (-> & _ & _). destruct (Hev' s e Hs) as (-> & _ & _). cbn [d_days]. apply (SD k); auto.
    destruct (io_vehicles _ _ OK k sv Hin) as [(Hk2 & HL & _) _ _ _ _ _]. rewrite HL. now apply clamped_position_lt.
  Qed.
  Lemma fifo_no_overtaking : no_overtaking ins -> fifo P.
  Proof.
    intros NO. destruct columns as [C _]. intros ri r i v day j w day' s s' Hr Hi Hj _ _ Hs Hs' Hss tv tw Hle Htie.
    destruct (vehicle_of _ _ _ _ Hr Hi) as (k & svs & t0 & sv & E & Ej & Hin & Er & Hst & Hc & Hev & _).
    destruct (vehicle_of _ _ _ _ Hr Hj) as (k' & svs' & t0' & sw & E' & Ej' & Hin' & _ & _ & _ & Hev' & _).
    assert (k' = k) by congruence. subst k'.
    destruct (io_vehicles _ _ OK k sv Hin) as [(Hk2 & HL & _) _ _ _ _ _].
    assert (Ls : (s < length (rk_stops k))%nat) by (rewrite Hst, map_length in Hs; exact Hs).
    assert (Ls' : (s' < length (rk_stops k))%nat) by (rewrite Hst, map_length in Hs'; exact Hs').
    assert (Tv : forall x e, (x < length (rk_stops k))%nat -> event_time P v day x e = (day - p_base P) * 1440 + nth (clamped_position (length (rk_stops k)) x e) (sv_times sv) 0)
      by (intros x e Hx; apply times_of, Hev, Hx).
    assert (Tw : forall x e, (x < length (rk_stops k))%nat -> event_time P w day' x e = (day' - p_base P) * 1440 + nth (clamped_position (length (rk_stops k)) x e) (sv_times sw) 0)
      by (intros x e Hx; apply times_of, Hev', Hx).
    assert (G : forall e, no_later P (event_time P v day s' e) (event_time P w day' s' e)); [|split; apply G].
    intros e. unfold tv, tw in *. clear tv tw. rewrite Tv, Tw in Hle, Htie by auto. rewrite Tv, Tw by auto.
    assert (Pc' := clamped_position_lt _ s' e Hk2 Ls'). set (be := if p_fwd P then kDep else kArr) in *.
    assert (Pc := clamped_position_lt _ s be Hk2 Ls). rewrite <- HL in Pc, Pc'.
    assert (Ord : if p_fwd P then (clamped_position (length (rk_stops k)) s be < clamped_position (length (rk_stops k)) s' e)%nat
                  else (clamped_position (length (rk_stops k)) s' e < clamped_position (length (rk_stops k)) s be)%nat).
    { unfold be. destruct (p_fwd P).
      - rewrite position_dep by lia. unfold clamped_position, clamp_ev.
        destruct e; [destruct (Nat.eqb_spec s' 0); cbn; lia|destruct (Nat.leb_spec (length (rk_stops k) - 1) s'); cbn; lia].
      - rewrite position_arr by lia. unfold clamped_position, clamp_ev.
        destruct e; [destruct (Nat.eqb_spec s' 0); cbn; lia|destruct (Nat.leb_spec (length (rk_stops k) - 1) s'); cbn; lia]. }
    assert (Tie : nth (clamped_position (length (rk_stops k)) s be) (sv_times sv) 0 = nth (clamped_position (length (rk_stops k)) s be) (sv_times sw) 0 + (day' - day) * 1440 ->
      ahead P i j -> no_later P ((day - p_base P) * 1440 + nth (clamped_position (length (rk_stops k)) s' e) (sv_times sv) 0)
                       ((day' - p_base P) * 1440 + nth (clamped_position (length (rk_stops k)) s' e) (sv_times sw) 0)).
    { intros Heq Ha. destruct (NO k sv sw (day' - day) _ _ Hin Hin' Pc Pc') as [_ N2]. specialize (N2 Heq).
      destruct (Hev s' e Ls') as (Ev & _ & _). destruct (Hev' s' e Ls') as (Ew & _ & _).
      set (p := nth (clamped_position (length (rk_stops k)) s' e) (sv_times sv) 0) in *.
      set (q := nth (clamped_position (length (rk_stops k)) s' e) (sv_times sw) 0) in *.
      rewrite Z.div_add in N2 by lia. assert (Dp := dm p). assert (Dq := dm q).
      unfold ahead, no_later in *. destruct (p_fwd P).
      - assert (X := C ri r i j v w s' e Hr Ha Hi Hj Hs'). rewrite Ev, Ew in X. cbn [d_mam] in X. lia.
      - assert (X := C ri r j i w v s' e Hr Ha Hj Hi Hs'). rewrite Ev, Ew in X. cbn [d_mam] in X. lia. }
    destruct (Z.eq_dec ((day - p_base P) * 1440 + nth (clamped_position (length (rk_stops k)) s be) (sv_times sv) 0)
                       ((day' - p_base P) * 1440 + nth (clamped_position (length (rk_stops k)) s be) (sv_times sw) 0)) as [Heq|Hne].
    { apply Tie; [lia|apply Htie; exact Heq]. }
    clear Tie Htie. destruct (NO k sv sw (day' - day) _ _ Hin Hin' Pc Pc') as [N1 _]. destruct (NO k sv sw (day' - day) _ _ Hin Hin' Pc' Pc) as [N2 _].
    unfold no_later in *. destruct (p_fwd P).
    - assert (X := N1 ltac:(lia) Ord). lia.
    - destruct (Z.lt_ge_cases (nth (clamped_position (length (rk_stops k)) s' e) (sv_times sv) 0) (nth (clamped_position (length (rk_stops k)) s' e) (sv_times sw) 0 + (day' - day) * 1440)) as [H|H]; [|lia].
      assert (X := N2 H Ord). lia.
  Qed.
  Lemma takes_time : moving ins -> rides_take_time P.
  Proof.
    intros MV l tb l' ta H. apply ride_sound in H.
    assert (G : forall x tx y ty, offered P ins x tx y ty -> tx < ty).
    { intros x tx y ty [k s day i j vi vj Hin _ Hij Hi Hj _ _ _ _ _ _ -> ->].
      assert (Lj : (j < length (rk_stops k))%nat) by (apply nth_error_Some; congruence).
      assert (M := MV k s i Hin ltac:(lia)). destruct (io_vehicles _ _ OK k s Hin) as [(Hk2 & HL & _) [HC _] _ _ _ _].
      assert (X := HC (2 * i + 1)%nat (2 * j - 1)%nat ltac:(lia)). lia. }
    destruct (p_fwd P); apply G in H; lia.
  Qed.

  (** ** Footpaths *)
  Lemma foot_facts : 
    (forall l l' d, In (l', d) (tt_footpaths_out tt l) <-> In (l, d) (tt_footpaths_in tt l')) /\
    (forall l l' d, In (l', d) (tt_footpaths_out tt l) -> (l < su_n su)%nat /\ (l' < su_n su)%nat /\ 0 <= d /\
       (exists x w, In (l', w) (su_links su x)) /\ (exists x w, In (l, w) (su_links su x))).
  Proof using OK LOAD. clear HP P.
    destruct load_parts as (out & inn & HB & _ & _ & _ & _ & -> & -> & _).
    assert (GO := io_links _ _ OK).
    destruct (C39_footpaths_are_shortest_walks _ _ _ _ (su_beeline su) GO (io_foot _ _ OK)) as (f0 & HF).
    destruct (HF (max f0 fuel) ltac:(lia)) as (out2 & inn2 & HB2 & W & MI & _).
    assert (out2 = out /\ inn2 = inn) as [-> ->].
    { assert (X := build_footpaths_mono _ _ _ _ _ _ _ _ HB (Nat.le_max_r f0 fuel)). rewrite HB2 in X. split; congruence. }
    split; [exact MI|]. intros l l' d H. apply W in H as (Hne & s & [Hw _] & _ & Hd).
    assert (Hlast : exists x w, In (l', w) (su_links su x)).
    { destruct Hw as [|b c dd w Hw Hin]; [congruence|]. eauto. }
    assert (Hfirst : exists y w, In (y, w) (su_links su l)).
    { clear - Hw Hne. induction Hw as [|b c dd w Hw IH Hin]; [congruence|]. destruct (Nat.eq_dec l b) as [->|Hn]; [eauto|auto]. }
    destruct Hlast as (x & w & Hx). destruct Hfirst as (y & w' & Hy).
    destruct (go_range _ _ _ GO _ _ _ Hx) as (_ & L1 & _). destruct (go_range _ _ _ GO _ _ _ Hy) as (L2 & _ & _).
    split; [exact L2|]. split; [exact L1|]. split; [|split; [eauto|exists y, w'; apply (go_sym _ _ _ GO); exact Hy]].
    unfold stored_minutes in Hd. destruct (su_beeline su) as [f|].
    - destruct Hd as (m & _ & ->). apply Z.mod_pos_bound. lia.
    - subst d. apply (walk_nonneg _ _ _ _ _ _ GO) in Hw. exact Hw.
  Qed.
End C51.

(** * C51 *)
(** Loading well-formed input succeeds (the footpath search terminates). *)
Theorem C51_loading_succeeds : forall su ins, input_ok su ins ->
  exists f0 tt, forall fuel, (f0 <= fuel)%nat -> load su ins fuel = Some tt.
Proof.
  intros su ins OK. destruct (C39_footpaths_are_shortest_walks _ _ _ _ (su_beeline su) (io_links _ _ OK) (io_foot _ _ OK)) as (f0 & HF).
  destruct (HF f0 (le_n _)) as (out & inn & HB & _). exists f0. unfold load, final_timetable. eexists. intros fuel Hf.
  rewrite (build_footpaths_mono _ _ _ _ _ _ _ _ HB Hf). reflexivity.
Qed.

(** Every ride the search can use is a ride on a vehicle of the input on one of its days, at its times, within its permissions and
    restrictions - also after duplicates were removed. *)
Theorem C51_rides_are_input_vehicles : forall su ins fuel tt P, input_ok su ins -> load su ins fuel = Some tt -> p_tt P = tt ->
  forall l tb l' ta, ride_ok P l tb l' ta -> if p_fwd P then offered P ins l tb l' ta else offered P ins l' ta l tb.
Proof. intros su ins fuel tt P OK LOAD HP. exact (ride_sound su ins fuel tt OK LOAD P HP). Qed.

(** Where no duplicates are to be merged every vehicle of the input can be used on each of its days. *)
Theorem C51_input_vehicles_are_rides : forall su ins fuel tt P, input_ok su ins -> load su ins fuel = Some tt -> p_tt P = tt ->
  nothing_to_merge su ->
  forall x tx y ty, offered P ins x tx y ty -> if p_fwd P then ride_ok P x tx y ty else ride_ok P y ty x tx.
Proof. intros su ins fuel tt P OK LOAD HP. exact (ride_complete su ins fuel tt OK LOAD P HP). Qed.

(** The route index of a location lists exactly the routes with a stop there. *)
Theorem C51_route_index_exact : forall su ins fuel tt, input_ok su ins -> load su ins fuel = Some tt ->
  forall l ri, In ri (tt_location_routes tt l) <->
    exists r st, nth_error (tt_routes tt) ri = Some r /\ In st (r_stops r) /\ Z.to_nat (s_loc st) = l.
Proof.
  intros su ins fuel tt OK LOAD l ri. destruct (load_parts su ins fuel tt LOAD) as (out & inn & _ & _ & -> & -> & _).
  set (rs := routes_of (add_all ins)). set (a := write_routes no_arrays rs). assert (N := n_routes ins). cbv zeta in N. fold rs a in N.
  rewrite location_routes_in. split.
  - intros (vs & v & Hvs & Hv & <-). change (nth_error (a_route_stops a) ri = Some vs) in Hvs.
    assert (Hlt : (ri < length (a_route_stops a))%nat) by (apply nth_error_Some; congruence).
    exists (final_route su a ri), (stop_of_value v). split; [apply (nth_error_map_seq_from (final_route su a) 0); exact Hlt|]. split; [|reflexivity].
    unfold final_route, loaded_route. cbn [r_stops].
    rewrite (nth_error_nth _ _ _ Hvs). now apply in_map.
  - intros (r & st & Hr & Hst & <-). apply (final_route_nth su ins) in Hr as (k & svs & t0 & x0 & E & Hat & _ & _ & -> & Hs & _).
    rewrite Hs in Hst. apply in_map_iff in Hst as (v & <- & Hv). exists (rk_stops k), v. split; [apply (ra_stops _ _ _ _ _ _ Hat)|]. auto.
Qed.

(** Everything the search theorems (C16-C22, C48-C50) assume about the timetable holds for a loaded one without overtaking. *)
Theorem C51_loaded_timetable_ok : forall su ins fuel tt P, input_ok su ins -> load su ins fuel = Some tt -> p_tt P = tt ->
  query_side_ok P su ins -> same_days ins \/ no_overtaking ins -> (p_fwd P = false -> moving ins) ->
  timetable_ok P /\
  (forall l l' d, In (l', d) (tt_footpaths_out tt l) <-> In (l, d) (tt_footpaths_in tt l')) /\
  (forall l l' d, In (l', d) (tt_footpaths_out tt l) -> (l < su_n su)%nat /\ (l' < su_n su)%nat /\ 0 <= d).
Proof.
  intros su ins fuel tt P OK LOAD HP QS FI MV.
  destruct (foot_facts su ins fuel tt OK LOAD) as [F1 F2]. destruct (load_parts su ins fuel tt LOAD) as (out & inn & _ & Ln & _ & _ & Lt & _).
  assert (F3 : forall l l' d, In (l', d) (if p_fwd P then tt_footpaths_out (p_tt P) l else tt_footpaths_in (p_tt P) l) ->
     (l' < su_n su)%nat /\ 0 <= d /\ exists x w, In (l', w) (su_links su x)).
  { intros l l' d H. rewrite HP in H. destruct (p_fwd P); [|apply F1 in H]; apply F2 in H as (A & B & C & D & E); auto. }
  split; [|split; [exact F1|intros l l' d H; apply F2 in H as (A & B & C & _); auto]].
  destruct (columns su ins fuel tt OK LOAD P HP) as [C W]. assert (ST := static su ins fuel tt LOAD P HP).
  constructor; auto.
  - split; [apply (qs_adjust _ _ _ QS)|]. split; [rewrite HP, Lt; intros l; apply (go_ttime _ _ _ (io_links _ _ OK))|].
    split; [intros l l' d H; apply F3 in H as (_ & H & _); exact H|apply (qs_offsets _ _ _ QS)].
  - intros Hd. destruct (qs_end _ _ _ QS Hd) as (E1 & E2 & E3). split; [exact E1|]. split.
    + intros ri r st Hr Hst. destruct (route_places su ins fuel tt OK LOAD P HP ri r st Hr Hst) as (k & svs & sv & w & _ & _ & Hin & Hw & ->). exact (E2 k sv w Hin Hw).
    + intros l d H. apply F3 in H as (_ & _ & x & w & H). exact (E3 x w H).
  - split; [|split].
    + intros ri r st Hr Hst. destruct (route_places su ins fuel tt OK LOAD P HP ri r st Hr Hst) as (k & svs & sv & w & _ & _ & Hin & Hw & ->).
      rewrite HP, Ln. apply (vo_places _ _ _ (io_vehicles _ _ OK k sv Hin) w Hw).
    + intros l l' d H. rewrite HP, Ln. apply F3 in H. tauto.
    + intros l H. rewrite HP, Ln. apply (qs_dest _ _ _ QS l H).
  - exact (index su ins fuel tt OK LOAD P HP).
  - destruct FI as [FI|FI]; [exact (fifo_same_days su ins fuel tt OK LOAD P HP FI)|exact (fifo_no_overtaking su ins fuel tt OK LOAD P HP FI)].
  - intros Hb. exact (takes_time su ins fuel tt OK LOAD P HP (MV Hb)).
Qed.

(** From the input to the result list: on a timetable loaded from well-formed input without overtaking, an interval query returns for
    every connection one that is as good (or a connection leaving after the interval is). *)
Theorem C51_no_connection_is_missed : forall su ins lfuel P L first_day q smode use_fp starts dmode dest mx START B iv mt fd shortest timeout slow_direct fuel,
  input_ok su ins -> load su ins lfuel = Some (p_tt P) -> query_side_ok P su ins -> same_days ins \/ no_overtaking ins -> (p_fwd P = false -> moving ins) ->
  query_is P L first_day q smode use_fp starts dmode dest mx START B iv ->
  0 <= fd -> Permutation shortest (shortest_offsets P L smode use_fp starts) ->
  exists rs, route_query P L first_day q smode starts dest mx START mt fd shortest timeout slow_direct (S fuel) = Some (rs, iv) /\
    forall t k l a, iv_from iv <= t < iv_to iv ->
      connection P (leaving P L first_day smode use_fp starts t) (transfer_time P) k l (minute P first_day a) ->
      Z.abs (a - t) < fd -> Z.abs (a - t) <= iq_max_travel q -> (k <= Nat.min mt 14 + 1)%nat ->
      (exists r, In r rs /\ at_least_as_early P t (j_start (r_journey r)) /\ at_least_as_early P (j_dest (r_journey r)) a /\
                 j_transfers (r_journey r) <= Z.of_nat k - 1) \/
      (exists k' l' a', (k' <= k)%nat /\ at_least_as_early P a' a /\
         connection P (leaving P L first_day smode use_fp starts (if p_fwd P then iv_to iv else iv_from iv - 1)) (transfer_time P) k' l'
                    (minute P first_day a')).
Proof.
  intros su ins lfuel P L first_day q smode use_fp starts dmode dest mx START B iv mt fd shortest timeout slow_direct fuel OK LOAD QS FI MV HQ.
  destruct (C51_loaded_timetable_ok su ins lfuel (p_tt P) P OK LOAD eq_refl QS FI MV) as [HT _].
  exact (C50_no_connection_is_missed P L first_day q smode use_fp starts dmode dest mx START B iv mt fd shortest timeout slow_direct fuel HT HQ).
Qed.

(** * Example: stations 0, 1, 2; a feeder 0 -> 1 (21:30 - 21:50) and night trains 1 -> 2.  With [slow] there is, in addition to the fast train
    (23:00 - 23:50), a slow one (22:00 - 01:00 of the next day).  Every location has a link to its neighbour. *)
Module ExampleLoad.
  Definition sv (l : Z) : Z := stop_value (mk_stop l true true true true).
  Definition k01 := mk_key 2 [sv 0; sv 1] [[true]; [false]; [true]; [true]].
  Definition k12 := mk_key 2 [sv 1; sv 2] [[true]; [false]; [true]; [true]].
  Definition on10 (d : Z) : bool := d =? 10.
  Definition ins (slow : bool) : list (route_key * service) :=
    [(k01, mk_service [1290; 1310] on10 0); (k12, mk_service [1380; 1430] on10 1)] ++ (if slow then [(k12, mk_service [1320; 1500] on10 2)] else []).
  Definition su := Loaded_Model.mk_setup 3 (Query_Model.mk_locs (fun _ => None) (fun _ => []) (fun _ => []) (fun _ => false)) (fun _ => Some 0%nat) (fun _ => 5)
     (fun _ => []) None false false 100 [] [] [].
  Definition no_tt := mk_tt 0 [] (fun _ => []) (fun _ => 0) (fun _ => []) (fun _ => []) (fun _ _ => false).
  Definition tt (slow : bool) : timetable := match load su (ins slow) 10 with Some t => t | None => no_tt end.
  Definition L := Dijkstra_Model.mk_locs 3 (fun _ => None) (fun _ => []) (fun _ => []) (fun _ => false).
  Definition dest := [(2%nat, 0)].
  Definition lb (slow : bool) : nat -> Z :=
    match Dijkstra_Model.lower_bounds L Dijkstra_Model.kExact dest [] (Dijkstra_Model.lb_edges L (tt slow) true false false) 10 with Dijkstra_Model.Done D => D | _ => fun _ => -1 end.
  Definition P (slow : bool) := mk_params true (tt slow) (Dijkstra_Model.collect_is_dest L Dijkstra_Model.kExact dest 99) None 99 (lb slow) 11 (fun _ => true) (fun _ => false) (fun d => d).
  Definition iv := mk_iv (10 * 1440 + 1280) (10 * 1440 + 1295).
  Definition q := mk_iquery true (Start_Model.Pretrip iv) false false 0 None false 1440 (mk_iv 0 100000).
  Definition starts := [Query_Model.mk_offset 0 0 0].
  Definition route slow := route_query (P slow) L 0 q Query_Model.kExact starts dest 0 98 5 1440 [(0%nat, 0)] (fun _ => false) (fun _ => []) 1.
  Example returned : route false = Some ([mk_result (mk_journey 15690 15830 1) true false], iv).
  Proof. vm_compute. reflexivity. Qed.
  Example returned_slow : route true = Some ([mk_result (mk_journey 15690 15900 1) true false], iv).
  Proof. vm_compute. reflexivity. Qed.

  Lemma vehicle_good k a b id : (k = k01 \/ k = k12) -> 0 <= a -> a < b -> b <= 1500 -> vehicle_ok 3 k (mk_service [a; b] on10 id).
  Proof.
    intros Hk Ha Hab Hb. constructor.
    - split; [destruct Hk as [->| ->]; cbn; lia|]. split; [destruct Hk as [->| ->]; reflexivity|]. cbn. intros t [<-|[<-|[]]]; lia.
    - split; [|cbn; intros t [<-|[<-|[]]]; lia]. intros x y Hxy. cbn in Hxy. destruct x as [|[|x]], y as [|[|y]]; cbn; lia.
    - destruct Hk as [->| ->]; cbn; lia.
    - intros v Hv. destruct Hk as [->| ->]; cbn [k01 k12 rk_stops In] in Hv; destruct Hv as [<-|[<-|[]]]; vm_compute; lia.
    - intros day t Hd Ht. apply Z.eqb_eq in Hd. subst day. assert (0 <= t <= 1500) by (cbn in Ht; destruct Ht as [<-|[<-|[]]]; lia).
      assert (t / 1440 < 2) by (apply Z.div_lt_upper_bound; lia). lia.
    - intros f Hf. left. destruct Hk as [->| ->]; destruct f as [|[|[|[|f]]]]; try reflexivity; lia.
  Qed.
  Lemma input_good slow : input_ok su (ins slow).
  Proof.
    constructor.
    - intros k s H. cbn [su su_n]. unfold ins in H. apply in_app_or in H. cbn [In] in H.
      destruct H as [[[= <- <-]|[[= <- <-]|[]]]|H]; try (apply vehicle_good; auto; lia).
      destruct slow; [|destruct H]. destruct H as [[= <- <-]|[]]. apply vehicle_good; auto; lia.
    - destruct slow; vm_compute; reflexivity.
    - constructor; cbn; try tauto. intros; lia.
    - cbn. lia.
  Qed.
  Lemma loaded slow : load su (ins slow) 10 = Some (tt slow).
  Proof.
    unfold tt. destruct (load su (ins slow) 10) eqn:E; [reflexivity|exfalso].
    unfold load, final_timetable in E.
    assert (H : exists r, Foot_Model.build_footpaths (su_n su) (su_links su) (su_ttime su) (su_max_foot su) (su_beeline su) 10 = Some r)
      by (eexists; vm_compute; reflexivity).
    destruct H as ([o i] & H). rewrite H in E. discriminate.
  Qed.
  Lemma side slow : query_side_ok (P slow) su (ins slow).
  Proof.
    constructor; cbn [P p_adjust p_dist_to_end p_is_dest]; auto; try discriminate; try congruence.
    intros l H. cbn in H. rewrite !orb_false_r in H. apply Nat.eqb_eq in H. cbn. lia.
  Qed.
  Lemma foot_empty slow l : tt_footpaths_out (tt slow) l = [] /\ tt_footpaths_in (tt slow) l = [].
  Proof.
    destruct (load_parts su (ins slow) 10 (tt slow) (loaded slow)) as (out & inn & H & _ & _ & _ & _ & -> & -> & _).
    vm_compute in H. injection H as <- <-. split; reflexivity.
  Qed.
  Lemma setup slow : query_setup L Dijkstra_Model.kExact dest [] false false (P slow).
  Proof.
    split; try discriminate; try reflexivity.
    - split; cbn; try discriminate; try tauto. intros i c. split; [tauto|intros [H _]; discriminate].
    - intros l l' d. cbn [P p_tt]. rewrite (proj1 (foot_empty slow l)). intros [].
    - intros x d [(t & [[= <- <-]|[]] & Hm)|[]]. lia.
    - intros t d x [[= <- <-]|[]] [<-|[]]. cbn. lia.
    - intros v d (x & [(t & [[= <- <-]|[]] & [<-|[]])|[]] & [<-|[]]). cbn. lia.
    - intros _ t d [[= <- <-]|[]]. reflexivity.
    - cbn [P p_lb]. unfold lb. exists 10%nat. cbn [P p_tt p_fwd].
      destruct (Dijkstra_Model.lower_bounds L Dijkstra_Model.kExact dest [] (Dijkstra_Model.lb_edges L (tt slow) true false false) 10) as [D| |] eqn:E.
      + exists D. auto.
      + destruct slow; vm_compute in E; discriminate.
      + destruct slow; vm_compute in E; discriminate.
  Qed.
  Lemma options slow l d : start_option (P slow) L Query_Model.kExact false starts l d <-> l = 0%nat /\ d = 0.
  Proof.
    split.
    - intros (s & l0 & [<-|[]] & [<-|[]] & [[-> ->]|[H _]]); [auto|discriminate].
    - intros [-> ->]. exists (Query_Model.mk_offset 0 0 0), 0%nat. split; [now left|]. split; [now left|]. left. auto.
  Qed.
  Lemma lb0 slow : p_lb (P slow) 0%nat = 70.
  Proof. destruct slow; vm_compute; reflexivity. Qed.
  Lemma q_ok slow : query_is (P slow) L 0 q Query_Model.kExact false starts Dijkstra_Model.kExact dest 0 98 15 iv.
  Proof.
    constructor; try reflexivity; try (cbn; lia).
    - exists false, false. exact (setup slow).
    - intros l d H. apply options in H as [-> ->]. lia.
    - intros l d H. apply options in H as [-> ->]. split; [destruct slow; vm_compute; lia|reflexivity].
    - cbn. intros s [<-|[]]. reflexivity.
    - split; [|exact (P_Full.ExampleFull.static_reach2 (P slow) (static su (ins slow) 10 (tt slow) (loaded slow) (P slow) eq_refl))].
      intros l t ri r s s' st1 st2 (d & H) Hl. apply options in H as [-> ->]. rewrite lb0 in Hl. discriminate.
    - intros x d [[= <- <-]|[]]. lia.
    - split; cbn; try lia; try tauto.
      + intros a b d (d0 & Hin & _). vm_compute in Hin. destruct Hin.
      + intros x d [[= <- <-]|[]]. lia.
  Qed.
  (** 21:25 at station 0, feeder, then the fast train: at station 2 at 23:50 - whether or not there is a slow train. *)
  Lemma conn slow : connection (P slow) (leaving (P slow) L 0 Query_Model.kExact false starts 15685) (transfer_time (P slow)) 2 2 (minute (P slow) 0 15830).
  Proof.
    assert (Off : forall k (x y : nat) i a b, In (k, mk_service [a; b] on10 i) (ins slow) -> (k = k01 /\ x = 0%nat /\ y = 1%nat \/ k = k12 /\ x = 1%nat /\ y = 2%nat) ->
      ride_ok (P slow) x (a - 1440) y (b - 1440)).
    { intros k x y i a b Hin Hk.
      apply (C51_input_vehicles_are_rides su (ins slow) 10 (tt slow) (P slow) (input_good slow) (loaded slow) eq_refl (fun l e sl se _ _ _ => conj (fun _ => eq_refl) (fun _ => eq_refl)) x (a - 1440) y (b - 1440)).
      apply (offered_intro (P slow) (ins slow) x (a - 1440) y (b - 1440) k (mk_service [a; b] on10 i) 10 0 1 (sv (Z.of_nat x)) (sv (Z.of_nat y))); try exact Hin; try reflexivity; try (cbn; lia);
        destruct Hk as [(-> & -> & ->)|(-> & -> & ->)]; try reflexivity; try (cbn; intros; discriminate); change (p_base (P slow)) with 11; cbn [nth sv_times Nat.mul Nat.add Nat.sub]; lia. }
    change (minute (P slow) 0 15830) with (1430 - 1440). apply conn_station; auto.
    apply (arrived_ride (P slow) _ _ 1 1 (1315 - 1440) (1380 - 1440) 2 (1430 - 1440)); [|unfold no_later; cbn; lia|].
    - replace (1315 - 1440) with (after (P slow) (1310 - 1440) (transfer_time (P slow) 1)) by (destruct slow; vm_compute; reflexivity). apply ready_transfer.
      apply (arrived_ride (P slow) _ _ 0 0 (1285 - 1440) (1290 - 1440) 1 (1310 - 1440)); [|unfold no_later; cbn; lia|].
      + apply ready_start. exists 0. split; [apply options; auto|reflexivity].
      + apply (Off k01 0%nat 1%nat 0%nat); auto. now left.
    - apply (Off k12 1%nat 2%nat 1%nat); auto. right. now left.
  Qed.
  Lemma days_good : same_days (ins false) /\ no_overtaking (ins false).
  Proof.
    assert (U : forall k s s', In (k, s) (ins false) -> In (k, s') (ins false) -> s = s').
    { intros k s s' H1 H2. assert (K : k01 <> k12) by discriminate. destruct H1 as [E|[E|[]]]; destruct H2 as [F|[F|[]]];
      apply pair_equal_spec in E as [E1 E2]; apply pair_equal_spec in F as [F1 F2]; congruence. }
    split.
    - intros k s s' c H H' _. rewrite (U k s s' H H'). reflexivity.
    - intros k s s' m c c' H H' _ _ t t'. unfold t, t'. rewrite <- (U k s s' H H'). split; intros; [lia|].
      replace m with 0 by lia. now rewrite Z.add_0_r.
  Qed.
  Example C51_nonvacuous :
    input_ok su (ins false) /\ load su (ins false) 10 = Some (p_tt (P false)) /\ query_side_ok (P false) su (ins false) /\ same_days (ins false) /\
    no_overtaking (ins false) /\ query_is (P false) L 0 q Query_Model.kExact false starts Dijkstra_Model.kExact dest 0 98 15 iv /\
    connection (P false) (leaving (P false) L 0 Query_Model.kExact false starts 15685) (transfer_time (P false)) 2 2 (minute (P false) 0 15830) /\
    route false = Some ([mk_result (mk_journey 15690 15830 1) true false], iv).
  Proof.
    split; [apply input_good|]. split; [apply loaded|]. split; [apply side|]. split; [apply days_good|]. split; [apply days_good|].
    split; [apply q_ok|]. split; [apply conn|exact returned].
  Qed.
  (** A backward query also has a usable timetable. *)
  Example C51_moving : moving (ins true).
  Proof.
    intros k s i H Hi. unfold ins in H. cbn [app In] in H.
    destruct H as [[= <- <-]|[[= <- <-]|[[= <- <-]|[]]]]; destruct i as [|i]; cbn in *; lia.
  Qed.
  (** Whoever leaves at the end of the interval (21:35) has missed the feeder. *)
  Lemma too_late slow k l t : ~ arrived (P slow) (leaving (P slow) L 0 Query_Model.kExact false starts (iv_to iv)) (transfer_time (P slow)) k l t.
  Proof.
    revert l t. induction k as [|k IH]; intros l t H; inversion H as [k0 l0 t0 tb l' ta Hready Hle Hride E1 E2 E3]; subst.
    assert (Hst : leaving (P slow) L 0 Query_Model.kExact false starts (iv_to iv) l0 t0).
    { inversion Hready; subst; auto; exfalso; eapply IH; eassumption. }
    destruct Hst as (d & Hd & ->). apply options in Hd as [-> ->].
    apply (C51_rides_are_input_vehicles su (ins slow) 10 (tt slow) (P slow) (input_good slow) (loaded slow) eq_refl) in Hride.
    cbn [P p_fwd] in Hride. change (p_fwd (P slow)) with true in Hride. cbv iota in Hride.
    destruct Hride as [k1 s day i j vi vj Hin Hday Hij Hi Hj Hpi _ _ _ _ _ Htb _].
    apply Z.eqb_eq in Hday || idtac.
    assert (Hk : k1 = k01 /\ s = mk_service [1290; 1310] on10 0 \/ k1 = k12).
    { unfold ins in Hin. apply in_app_or in Hin. cbn [In] in Hin. destruct Hin as [[E|[E|[]]]|E]; [left|right|right].
      - apply pair_equal_spec in E as [E1 E2]. auto.
      - apply pair_equal_spec in E as [E1 E2]. auto.
      - destruct slow; [|destruct E]. destruct E as [E|[]]. apply pair_equal_spec in E as [E1 E2]. auto. }
    destruct Hk as [[-> ->]| ->].
    - apply Z.eqb_eq in Hday. subst day. destruct i as [|[|i]]; [|cbn in Hi, Hj; destruct j as [|[|j]]; cbn in Hj; try lia; destruct j; discriminate|destruct i; discriminate].
      unfold no_later in Hle. cbn in Hle, Htb. lia.
    - destruct i as [|[|i]]; cbn in Hi; [| |destruct i; discriminate]; injection Hi as <-; vm_compute in Hpi; discriminate.
  Qed.
End ExampleLoad.

(** REFUTED without "no overtaking": the slow train (22:00 - 01:00) and the fast train (23:00 - 23:50) become one route, because the loader
    only compares minutes of the day (get_index.h:15-24: 01:00 is before 23:50); the search boards the first train of a route and misses
    the connection that is more than an hour faster.  Everything else the theorem asks for holds. *)
Theorem C51_night_train_missed_refuted : exists su ins lfuel P L q starts dest iv rs t k l a,
  input_ok su ins /\ load su ins lfuel = Some (p_tt P) /\ query_side_ok P su ins /\ moving ins /\
  query_is P L 0 q Query_Model.kExact false starts Dijkstra_Model.kExact dest 0 98 15 iv /\
  route_query P L 0 q Query_Model.kExact starts dest 0 98 5 1440 (shortest_offsets P L Query_Model.kExact false starts) (fun _ => false) (fun _ => []) 1 = Some (rs, iv) /\
  iv_from iv <= t < iv_to iv /\ connection P (leaving P L 0 Query_Model.kExact false starts t) (transfer_time P) k l (minute P 0 a) /\
  Z.abs (a - t) < 1440 /\ Z.abs (a - t) <= iq_max_travel q /\ (k <= Nat.min 5 14 + 1)%nat /\
  (forall r, In r rs -> ~ at_least_as_early P (j_dest (r_journey r)) a) /\
  (forall k' l' a', ~ connection P (leaving P L 0 Query_Model.kExact false starts (iv_to iv)) (transfer_time P) k' l' a').
Proof.
  exists ExampleLoad.su, (ExampleLoad.ins true), 10%nat, (ExampleLoad.P true), ExampleLoad.L, ExampleLoad.q, ExampleLoad.starts, ExampleLoad.dest,
    ExampleLoad.iv, [mk_result (mk_journey 15690 15900 1) true false], 15685, 2%nat, 2%nat, 15830.
  split; [apply ExampleLoad.input_good|]. split; [apply ExampleLoad.loaded|]. split; [apply ExampleLoad.side|]. split; [exact ExampleLoad.C51_moving|].
  split; [apply ExampleLoad.q_ok|]. split; [exact ExampleLoad.returned_slow|]. split; [cbn; lia|]. split; [apply ExampleLoad.conn|].
  split; [lia|]. split; [cbn; lia|]. split; [cbn; lia|]. split.
  - intros r [<-|[]]. unfold at_least_as_early. cbn. lia.
  - intros k' l' a' [_ _ H|l0 t0 d _ _ H _ _|off l0 t0 d E _ _ _ _ _]; [exact (ExampleLoad.too_late true _ _ _ H)|exact (ExampleLoad.too_late true _ _ _ H)|discriminate E].
Qed.

Print Assumptions C51_loading_succeeds.
Print Assumptions C51_rides_are_input_vehicles.
Print Assumptions C51_input_vehicles_are_rides.
Print Assumptions C51_route_index_exact.
Print Assumptions C51_loaded_timetable_ok.
Print Assumptions C51_no_connection_is_missed.
Print Assumptions C51_night_train_missed_refuted.
