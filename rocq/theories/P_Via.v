(** Property theorems C56, C57: the round-based search with via stops.
    The specification of connections that visit the vias is [Via_Spec]; [trip] below describes journeys that know nothing about
    vias (with the places the traveller passes), against which that specification is checked. *)
From Coq Require Import List ZArith Bool Arith Lia.
From Verif Require Import Base Time_Model Raptor_Model Raptor_Spec Raptor_Base Raptor_Sound Raptor_Opt Raptor_Final P_Raptor
  Via_Model Via_Spec Via_Expand Via_Genuine Via_Final.
Import ListNotations.
Local Open Scope Z_scope.

(** * C56  Reported journeys visit all vias in order *)
(** Everything the traveller does, place by place. *)
Inductive presence :=
| Start (l : nat)                 (* the journey begins at [l] *)
| Passing (l : nat)               (* the vehicle stops at [l] *)
| Staying (l : nat) (d : Z).      (* on foot at [l], for [d] minutes on top of the transfer time *)

Section Trips.
  Variable P : params.
  Variable St : nat -> Z -> Prop.
  (** A ride that satisfies the filters of the query ([Raptor_Spec.ride_ok]) and the locations it calls at after boarding. *)
  Inductive ride_calling (l : nat) (tb : Z) (calls : list nat) (l' : nat) (ta : Z) : Prop :=
  | ride_calling_intro : forall ri r vi w day s s' st st',
      nth_error (tt_routes (p_tt P)) ri = Some r -> nth_error (r_vehicles r) vi = Some w -> runs_on w day ->
      nth_error (r_stops r) s = Some st -> nth_error (r_stops r) s' = Some st' ->
      (if p_fwd P then (s < s')%nat else (s' < s)%nat) ->
      Z.to_nat (s_loc st) = l -> Z.to_nat (s_loc st') = l' ->
      get_on_allowed P st = true -> get_off_allowed P st' = true ->
      p_allowed_clasz P (r_clasz r) = true ->
      (forall f sec, (f < 4)%nat -> p_require P f = true ->
                     (Nat.min s s' <= sec < Nat.max s s')%nat -> section_has r sec f) ->
      tb = event_time P w day s (if p_fwd P then kDep else kArr) ->
      ta = event_time P w day s' (if p_fwd P then kArr else kDep) ->
      calls = map (fun q => Z.to_nat (s_loc (stop_at r q)))
                  (if p_fwd P then seq (S s) (s' - s) else rev (seq s' (s - s'))) ->
      ride_calling l tb calls l' ta.
  (** Journeys with [k] rides: the traveller may stay anywhere for as long as he likes. *)
  Inductive trip_ready : list presence -> nat -> nat -> Z -> Prop :=
  | trip_start l t : St l t -> trip_ready [Start l] 0 l t
  | trip_transfer tr k l t d : trip_arrived tr k l t -> 0 <= d ->
      trip_ready (tr ++ [Staying l d]) k l (after P t (transfer_time P l + d))
  | trip_walk tr k l t l' w d d' : trip_arrived tr k l t -> walk P l l' w -> 0 <= d -> 0 <= d' ->
      trip_ready (tr ++ [Staying l d; Staying l' d']) k l' (after P t (w + d + d'))
  with trip_arrived : list presence -> nat -> nat -> Z -> Prop :=
  | trip_ride tr k l t tb calls l' ta : trip_ready tr k l t -> no_later P t tb -> ride_calling l tb calls l' ta ->
      trip_arrived (tr ++ map Passing calls) (S k) l' ta.
  Inductive trip (tr : list presence) (k : nat) (l : nat) (t : Z) : Prop :=
  | trip_station tr0 t0 d : p_dist_to_end P = None -> p_is_dest P l = true -> trip_arrived tr0 k l t0 -> 0 <= d ->
      tr = tr0 ++ [Staying l d] -> t = after P t0 d -> trip tr k l t
  | trip_foot tr0 l0 t0 w d d' : p_dist_to_end P = None -> p_is_dest P l = true -> trip_arrived tr0 k l0 t0 -> walk P l0 l w ->
      0 <= d -> 0 <= d' -> tr = tr0 ++ [Staying l0 d; Staying l d'] -> t = after P t0 (w + d + d') -> trip tr k l t
  | trip_offset off tr0 l0 t0 w d : p_dist_to_end P = Some off -> p_is_dest P l = true -> trip_arrived tr0 k l0 t0 ->
      off l0 = Some w -> 0 <= d -> tr = tr0 ++ [Staying l0 d] -> t = after P t0 (d + w) -> trip tr k l t.
End Trips.

(** What counts as a visit of a via. *)
Definition counts (w : via) (p : presence) : Prop :=
  match p with
  | Start l => via_at w l = true
  | Passing l => via_at w l = true /\ via_stay w = 0
  | Staying l d => via_at w l = true /\ via_stay w <= d
  end.
(** The vias are visited in the given order, each on its own occasion. *)
Inductive visits : list via -> list presence -> Prop :=
| visits_nil tr : visits [] tr
| visits_skip ws p tr : visits ws tr -> visits ws (p :: tr)
| visits_take w ws p tr : counts w p -> visits ws tr -> visits (w :: ws) (p :: tr).

Lemma visits_app ws tr ws' tr' : visits ws tr -> visits ws' tr' -> visits (ws ++ ws') (tr ++ tr').
Proof.
  induction 1 as [tr|ws p tr H IH|w ws p tr Hc H IH]; intros H'; cbn [app].
  - induction tr as [|p tr IH]; cbn [app]; auto. now apply visits_skip.
  - apply visits_skip. auto.
  - apply visits_take; auto.
Qed.
Lemma visits_more ws tr tr' : visits ws tr -> visits ws (tr ++ tr').
Proof. intros H. rewrite <- (app_nil_r ws). apply visits_app; auto. constructor. Qed.
Lemma firstn_next {A} (l : list A) v w : nth_error l v = Some w -> firstn (S v) l = firstn v l ++ [w].
Proof.
  revert l. induction v as [|v IH]; intros [|x l] H; try discriminate.
  - injection H as ->. reflexivity.
  - change (firstn (S (S v)) (x :: l)) with (x :: firstn (S v) l). rewrite (IH l H). reflexivity.
Qed.
Lemma visits_one w p : counts w p -> visits [w] [p].
Proof. intros H. apply visits_take; auto. constructor. Qed.

Section Vias.
  Variable P : params.
  Variable vias : list via.
  Hypothesis Hstay : stays_ok vias.
  Notation visited := (visited vias).
  Notation staying := (staying vias).

  Lemma visits_staying v l tr : visits (firstn v vias) tr -> visits (firstn (visited v l) vias) (tr ++ [Staying l (staying v l)]).
  Proof.
    intros H. unfold Via_Spec.visited, Via_Spec.staying, next_via. destruct (nth_error vias v) as [w|] eqn:E.
    - destruct (via_at w l) eqn:El; [|now apply visits_more].
      rewrite (firstn_next _ _ _ E). apply visits_app; auto. apply visits_one. cbn. split; auto. lia.
    - now apply visits_more.
  Qed.
  Lemma staying_pos v l : 0 <= staying v l.
  Proof. apply staying_nonneg. exact Hstay. Qed.
  Lemma visits_passing l : forall v tr, visits (firstn v vias) tr ->
    visits (firstn (pass_all vias v l) vias) (tr ++ map Passing (map (fun st => Z.to_nat (s_loc st)) l)).
  Proof.
    induction l as [|st l IH]; intros v tr H; cbn [map pass_all fold_left].
    - rewrite app_nil_r. exact H.
    - change (Passing (Z.to_nat (s_loc st)) :: ?x) with ([Passing (Z.to_nat (s_loc st))] ++ x). rewrite app_assoc.
      apply IH. unfold passing, next_via. destruct (nth_error vias v) as [w|] eqn:E; [|now apply visits_more].
      destruct (via_at w (Z.to_nat (s_loc st))) eqn:El; [|now apply visits_more].
      destruct (Z.eqb_spec (via_stay w) 0) as [E0|E0]; [|now apply visits_more].
      rewrite (firstn_next _ _ _ E). apply visits_app; auto. apply visits_one. cbn. auto.
  Qed.
  Lemma stops_passed_calls r s s' st st' : nth_error (r_stops r) s = Some st -> nth_error (r_stops r) s' = Some st' ->
    (if p_fwd P then (s < s')%nat else (s' < s)%nat) ->
    map (fun x => Z.to_nat (s_loc x)) (stops_passed P r s s')
      = map (fun q => Z.to_nat (s_loc (stop_at r q))) (if p_fwd P then seq (S s) (s' - s) else rev (seq s' (s - s'))).
  Proof.
    intros Hs Hs' Hlt.
    assert (G : forall a m, (a + m <= length (r_stops r))%nat -> firstn m (skipn a (r_stops r)) = map (stop_at r) (seq a m)).
    { intros a m Hm. unfold stop_at. rewrite (firstn_skipn_map (mk_stop 0 false false false false)); auto. }
    assert (Ls : (s < length (r_stops r))%nat) by (apply nth_error_Some; congruence).
    assert (Ls' : (s' < length (r_stops r))%nat) by (apply nth_error_Some; congruence). unfold stops_passed.
    destruct (p_fwd P).
    - rewrite G by lia. now rewrite map_map.
    - rewrite G by lia. now rewrite <- map_rev, map_map.
  Qed.
  Lemma ride_trip v l tb v' l' ta tr : via_ride P vias v l tb v' l' ta -> visits (firstn v vias) tr ->
    exists calls, ride_calling P l tb calls l' ta /\ visits (firstn v' vias) (tr ++ map Passing calls).
  Proof.
    intros [ri r vi w day s s' st st' Hr Hv Hrun Hs Hs' Hlt El El' Hon Hoff Hcl Hsec Etb Eta ->] H.
    exists (map (fun x => Z.to_nat (s_loc x)) (stops_passed P r s s')). split.
    - eapply (ride_calling_intro P l tb _ l' ta ri r vi w day s s' st st'); eauto.
      eapply stops_passed_calls; eauto.
    - now apply visits_passing.
  Qed.

  Section Starts.
  Variable St : nat -> Z -> Prop.
  Lemma visits_start l : visits (firstn (visited 0 l) vias) [Start l].
  Proof.
    unfold Via_Spec.visited, next_via. destruct (nth_error vias 0) as [w|] eqn:E; [|constructor].
    destruct (via_at w l) eqn:El; [|constructor]. rewrite (firstn_next _ _ _ E). now apply visits_one.
  Qed.
  Lemma via_trips : forall k,
    (forall v l t, varrived P vias St (transfer_time P) k v l t ->
       exists tr, trip_arrived P St tr k l t /\ visits (firstn v vias) tr) /\
    (forall v l t, vready P vias St (transfer_time P) k v l t ->
       exists tr, trip_ready P St tr k l t /\ visits (firstn v vias) tr).
  Proof.
    assert (HR : forall k,
      (forall v l t, varrived P vias St (transfer_time P) k v l t ->
         exists tr, trip_arrived P St tr k l t /\ visits (firstn v vias) tr) ->
      (forall v l t, vready P vias St (transfer_time P) k v l t ->
         exists tr, trip_ready P St tr k l t /\ visits (firstn v vias) tr)).
    { intros k HA v l t H. inversion H as [l0 t0 Hs|k0 v0 l0 t0 Ha|k0 v0 l0 t0 l1 d Ha Hw]; subst.
      - exists [Start l]. split; [now constructor|apply visits_start].
      - destruct (HA _ _ _ Ha) as (tr & Ht & Hvis). exists (tr ++ [Staying l (staying v0 l)]). split.
        + apply trip_transfer; auto. apply staying_pos.
        + now apply visits_staying.
      - destruct (HA _ _ _ Ha) as (tr & Ht & Hvis).
        exists (tr ++ [Staying l0 (staying v0 l0); Staying l (staying (visited v0 l0) l)]). split.
        + apply trip_walk; auto; apply staying_pos.
        + change (tr ++ [?x; ?y]) with (tr ++ [x] ++ [y]). rewrite app_assoc. apply visits_staying. now apply visits_staying. }
    induction k as [|k [IHa IHr]].
    - assert (HA : forall v l t, varrived P vias St (transfer_time P) 0 v l t ->
         exists tr, trip_arrived P St tr 0 l t /\ visits (firstn v vias) tr) by (intros v l t Hx; inversion Hx).
      split; auto.
    - assert (HA : forall v l t, varrived P vias St (transfer_time P) (S k) v l t ->
         exists tr, trip_arrived P St tr (S k) l t /\ visits (firstn v vias) tr).
      { intros v l t Hx. inversion Hx as [k0 v0 l0 t0 tb v' l' ta Hrd Hn Hri]; subst.
        destruct (IHr _ _ _ Hrd) as (tr & Ht & Hvis). destruct (ride_trip _ _ _ _ _ _ _ Hri Hvis) as (calls & Hc & Hvis').
        exists (tr ++ map Passing calls). split; auto. eapply trip_ride; eauto. }
      split; auto.
  Qed.
  Lemma visits_full v tr : v = length vias -> visits (firstn v vias) tr -> visits vias tr.
  Proof. intros ->. now rewrite firstn_all. Qed.
  Theorem via_connection_trip k l t : via_connection P vias St (transfer_time P) k l t ->
    exists tr, trip P St tr k l t /\ visits vias tr.
  Proof.
    intros [v t0 Hd Hdest Ha Hv ->|v l0 t0 d Hd Hdest Ha Hw Hv ->|off v l0 t0 d Hd Hdest El Ha Hoff Hv ->];
      destruct (proj1 (via_trips k) _ _ _ Ha) as (tr & Ht & Hvis).
    - exists (tr ++ [Staying l (staying v l)]). split; [|apply (visits_full _ _ Hv); now apply visits_staying].
      eapply trip_station; eauto. apply staying_pos.
    - exists (tr ++ [Staying l0 (staying v l0); Staying l (staying (visited v l0) l)]). split.
      + eapply trip_foot; eauto; apply staying_pos.
      + change (tr ++ [?x; ?y]) with (tr ++ [x] ++ [y]). rewrite app_assoc. apply (visits_full _ _ Hv). apply visits_staying. now apply visits_staying.
    - exists (tr ++ [Staying l0 (staying v l0)]). split; [|apply (visits_full _ _ Hv); now apply visits_staying].
      eapply trip_offset; eauto. apply staying_pos.
  Qed.
  End Starts.
End Vias.

Theorem C56_reported_journeys_visit_all_vias : forall P vias mt gs j,
  all_vehicles_wf P -> durations_ok P -> end_ok P -> locations_ok P -> stays_ok vias -> groups_ok P gs ->
  In j (snd (via_raptor P vias mt gs)) ->
  exists tr l k t, (1 <= k)%nat /\ Z.of_nat k <= j_transfers j + 1 /\ no_later P t (j_dest j) /\
    trip P (start_options P gs (j_start j)) tr k l t /\ visits vias tr.
Proof.
  intros P vias mt gs j Hwf Hdur Hend Hloc Hstay Hgs Hin.
  destruct (via_reported_feasible P vias Hwf Hdur Hend Hloc Hstay mt gs j Hgs Hin) as (l & k & t & Hk & Hk' & Hc & Ht).
  destruct (via_connection_trip P vias Hstay _ k l t Hc) as (tr & Htr & Hv).
  exists tr, l, k, t. do 3 (split; auto).
Qed.

(** The specification with via counters used by C57 is met as well. *)
Theorem C56_reported_journeys_are_via_connections : forall P vias mt gs j,
  all_vehicles_wf P -> durations_ok P -> end_ok P -> locations_ok P -> stays_ok vias -> groups_ok P gs ->
  In j (snd (via_raptor P vias mt gs)) ->
  exists l k t, (1 <= k)%nat /\ Z.of_nat k <= j_transfers j + 1 /\ no_later P t (j_dest j) /\
    via_connection P vias (start_options P gs (j_start j)) (transfer_time P) k l t.
Proof.
  intros P vias mt gs j Hwf Hdur Hend Hloc Hstay Hgs Hin.
  destruct (via_reported_feasible P vias Hwf Hdur Hend Hloc Hstay mt gs j Hgs Hin) as (l & k & t & Hk & Hk' & Hc & Ht).
  exists l, k, t. do 3 (split; auto).
Qed.

(** * C57  Optimality with vias *)
(** The assumptions of C18 on the timetable, the lower bounds and the starts of the groups up to [g]. *)
Record via_setting (P : params) (vias : list via) (D : nat -> Z) (gs gs1 : list group) (g : group) : Prop := mk_via_setting {
  vst_vehicles : all_vehicles_wf P; vst_durations : durations_ok P; vst_end : end_ok P; vst_locations : locations_ok P;
  vst_stays : stays_ok vias;
  vst_columns : columns_sorted P; vst_index : index_ok P; vst_fifo : fifo P; vst_bounds : lower_bounds_ok P D;
  vst_groups : groups_ok P gs; vst_split : exists gs2, gs = gs1 ++ g :: gs2;
  vst_reach : starts_reach_ok P (starts_of (gs1 ++ [g]));
  (* a start may be a destination as long as vias are missing there *)
  vst_starts : forall l t, starts_of (gs1 ++ [g]) l t ->
    (l < tt_n_locations (p_tt P))%nat /\ (p_is_dest P l = false \/ visited vias 0 l <> length vias) }.

Theorem C57_via_search_is_optimal : forall P vias mt D gs gs1 g K l a,
  via_setting P vias D gs gs1 g -> via_once P vias ->
  (* horizon as in C18 *)
  (forall g', In g' (gs1 ++ [g]) -> no_later P a (g_worst g')) ->
  no_later P a (after P (g_start g) 7200) -> -32768 < a < 32767 ->
  (K <= Nat.min mt 14 + 1)%nat ->
  via_connection P vias (fun l t => In (l, t) (g_starts g)) (transfer_time P) K l a ->
  exists j, In j (snd (via_raptor P vias mt gs)) /\ j_transfers j <= Z.of_nat K - 1 /\
            no_later P (j_dest j) a /\ no_later P (g_start g) (j_start j).
Proof.
  intros P vias mt D gs gs1 g K l a [Hwf Hdur Hend Hloc Hstay Hcol Hidx Hfifo HD Hgs (gs2 & E) Hreach Hsl] Honce Hw Hh Ha HK Hconn.
  apply (via_search_optimal P vias mt Hwf Hdur Hend Hloc Hstay Honce Hcol Hidx Hfifo D HD gs gs1 g gs2 K l a); auto.
  - unfold end_k, kMaxTransfers. lia.
  - unfold Raptor_Base.o, OI. destruct (p_fwd P); lia.
Qed.
(** Together: in that setting the best reported arrival for every number of rides is exactly the best via connection. *)
Corollary C57_best_arrival_is_exact : forall P vias mt D gs gs1 g K l a,
  via_setting P vias D gs gs1 g -> via_once P vias ->
  (forall g', In g' (gs1 ++ [g]) -> no_later P a (g_worst g')) ->
  no_later P a (after P (g_start g) 7200) -> -32768 < a < 32767 ->
  (K <= Nat.min mt 14 + 1)%nat ->
  via_connection P vias (fun l t => In (l, t) (g_starts g)) (transfer_time P) K l a ->
  exists j tr l' k t, In j (snd (via_raptor P vias mt gs)) /\ no_later P (j_dest j) a /\ j_transfers j <= Z.of_nat K - 1 /\
    (1 <= k <= K)%nat /\ no_later P t (j_dest j) /\
    trip P (start_options P gs (j_start j)) tr k l' t /\ visits vias tr.
Proof.
  intros P vias mt D gs gs1 g K l a Hs Ho Hw Hh Ha HK Hc.
  destruct (C57_via_search_is_optimal P vias mt D gs gs1 g K l a Hs Ho Hw Hh Ha HK Hc) as (j & Hj & Ht & Hd & _).
  destruct Hs as [Hwf Hdur Hend Hloc Hstay _ _ _ _ Hgs _ _ _].
  destruct (C56_reported_journeys_visit_all_vias P vias mt gs j Hwf Hdur Hend Hloc Hstay Hgs Hj) as (tr & l' & k & t & H1 & H2 & H3 & H4 & H5).
  exists j, tr, l', k, t. split; auto. split; auto. split; auto. split; [lia|]. auto.
Qed.

Module ExampleVia.
  (** Stations 0 .. 3.  Route 0: 0 - 1 - 2 at 08:00, 08:30, 09:00; route 1: 2 - 3 at 09:10 and 10:00 (30 minutes); route 2: 0 - 3 at
      08:05 (30 minutes).  Vias: station 1 (passing is enough), station 2 (20 minutes).  Transfer time 5 minutes. *)
  Definition veh (a : Z) : vehicle :=
    mk_vehicle (fun s _ => mk_delta 0 (a + 30 * Z.of_nat (Nat.min s 2))) (fun d => (10 <=? d) && (d <? 20)).
  Definition st (l : Z) : stop := mk_stop l true true true true.
  Definition no (_ : nat) := false.
  Definition r0 := mk_route [st 0; st 1; st 2] 3 no no (fun _ => no) [veh 480] None.
  Definition r1 := mk_route [st 2; st 3] 4 no no (fun _ => no) [veh 550; veh 600] None.
  Definition r2 := mk_route [st 0; st 3] 4 no no (fun _ => no) [veh 485] None.
  Definition tt := mk_tt 4 [r0; r1; r2] (fun l => match l with 0%nat => [0; 2]%nat | 1%nat => [0%nat] | 2%nat => [0; 1]%nat | _ => [1; 2]%nat end)
                         (fun _ => 5) (fun _ => []) (fun _ => []) (fun _ d => (10 <=? d) && (d <? 20)).
  Definition D (l : nat) : Z := match l with 0%nat => 30 | 1%nat => 60 | 2%nat => 30 | _ => 0 end.
  Definition P := mk_params true tt (fun l => Nat.eqb l 3) None 99 D 10 (fun _ => true) no (fun d => d).
  Definition vias := [mk_via (Nat.eqb 1) 0; mk_via (Nat.eqb 2) 20].
  Definition g1 := mk_group 500 (500 + 2880) [(0%nat, 500)].
  Definition g2 := mk_group 470 (470 + 2880) [(0%nat, 470)].
  Definition g3 := mk_group 470 (470 + 2880) [(2%nat, 470)].

  (** Without vias the direct route wins; with vias the traveller changes at 2, stays, and takes the second vehicle. *)
  Example results_plain : snd (raptor P 5 [g1; g2]) = [mk_journey 500 1955 0; mk_journey 470 515 0].
  Proof. vm_compute. reflexivity. Qed.
  Example results_via : snd (via_raptor P vias 5 [g1; g2]) = [mk_journey 500 2070 1; mk_journey 470 630 1].
  Proof. vm_compute. reflexivity. Qed.
  (** Starting behind the first via there is no journey. *)
  Example results_none : snd (via_raptor P vias 5 [g3]) = [].
  Proof. vm_compute. reflexivity. Qed.

  Lemma routes ri r : nth_error (tt_routes (p_tt P)) ri = Some r ->
    (ri = 0%nat /\ r = r0) \/ (ri = 1%nat /\ r = r1) \/ (ri = 2%nat /\ r = r2).
  Proof. destruct ri as [|[|[|ri]]]; cbn; intros H; try (destruct ri; discriminate); injection H as <-; auto. Qed.
  Lemma vehicle_of ri r v : nth_error (tt_routes (p_tt P)) ri = Some r -> In v (r_vehicles r) -> exists a, v = veh a /\ 480 <= a <= 600.
  Proof.
    intros Hr Hv. apply routes in Hr as [[_ ->]|[[_ ->]|[_ ->]]]; cbn in Hv; repeat destruct Hv as [<-|Hv]; try destruct Hv;
      eexists; (split; [reflexivity|lia]).
  Qed.
  Lemma stop_lt ri r s : nth_error (tt_routes (p_tt P)) ri = Some r -> (s < length (r_stops r))%nat -> (s <= 2)%nat.
  Proof. intros Hr. apply routes in Hr as [[_ ->]|[[_ ->]|[_ ->]]]; cbn; lia. Qed.

  Lemma wf : all_vehicles_wf P.
  Proof.
    split; [|apply static_rt_ok; intros ri r Hr; apply routes in Hr as [[_ ->]|[[_ ->]|[_ ->]]]; reflexivity].
    intros ri r v Hr Hv. destruct (vehicle_of _ _ _ Hr Hv) as (a & -> & Ha).
    split; [|split]; unfold event_minutes, veh; cbn [v_ev d_days d_mam].
    - intros s e Hl. pose proof (stop_lt _ _ _ Hr Hl). lia.
    - intros s Hl. lia.
    - intros s s' Hl. lia.
  Qed.
  Lemma dur : durations_ok P.
  Proof. repeat split; cbn; intros; try lia; try tauto; try discriminate. Qed.
  Lemma endok : end_ok P.
  Proof. intros H. cbn in H. congruence. Qed.
  Lemma loc : locations_ok P.
  Proof.
    split; [|split]; cbn.
    - intros ri r s0 Hr Hin. apply routes in Hr as [[_ ->]|[[_ ->]|[_ ->]]]; cbn in Hin; repeat destruct Hin as [<-|Hin]; try destruct Hin; cbn; lia.
    - tauto.
    - intros l H. apply Nat.eqb_eq in H. lia.
  Qed.
  Lemma stays : stays_ok vias.
  Proof. intros w [<-|[<-|[]]]; cbn; lia. Qed.
  Lemma grp : groups_ok P [g1; g2].
  Proof.
    split.
    - intros g l t [<-|[<-|[]]] [[= <- <-]|[]]; unfold time_range; lia.
    - intros g [<-|[<-|[]]]; unfold time_range; cbn; lia.
    - intros g l t [<-|[<-|[]]] [[= <- <-]|[]]; unfold no_later; cbn; lia.
    - intros [|x [|y gs1]] g gs2 g' E Hin; cbn in E; injection E.
      + destruct Hin.
      + intros; subst. destruct Hin as [<-|[]]. unfold no_later; cbn; lia.
      + intros E' _ _. destruct gs1; discriminate.
  Qed.
  Example C56_nonvacuous :
    all_vehicles_wf P /\ durations_ok P /\ end_ok P /\ locations_ok P /\ stays_ok vias /\ groups_ok P [g1; g2] /\
    In (mk_journey 470 630 1) (snd (via_raptor P vias 5 [g1; g2])).
  Proof.
    refine (conj wf (conj dur (conj endok (conj loc (conj stays (conj grp _)))))).
    match goal with |- In _ (snd ?r) => assert (E : snd r = [mk_journey 500 2070 1; mk_journey 470 630 1]) by (vm_compute; reflexivity) end.
    rewrite E. right. left. reflexivity.
  Qed.
  Lemma cols : columns_sorted P.
  Proof.
    intros ri r i j v w s e Hr Hij Hv Hw Hs. apply routes in Hr as [[_ ->]|[[_ ->]|[_ ->]]]; cbn [r0 r1 r2 r_vehicles] in Hv, Hw;
      destruct i as [|[|i]]; destruct j as [|[|j]]; cbn [nth_error] in Hv, Hw; try lia; try (destruct i; discriminate); try (destruct j; discriminate); try discriminate;
        injection Hv as <-; injection Hw as <-; unfold veh; cbn [v_ev d_mam]; lia.
  Qed.
  Lemma days_of ri r v : nth_error (tt_routes (p_tt P)) ri = Some r -> In v (r_vehicles r) ->
    forall day s e, v_days v day = (10 <=? day) && (day <? 20) /\ d_days (v_ev v s e) = 0.
  Proof. intros Hr Hv. destruct (vehicle_of _ _ _ Hr Hv) as (a & -> & _). auto. Qed.
  Lemma idx : index_ok P.
  Proof.
    split.
    - intros ri r s0 Hr Hin. apply routes in Hr as [[-> ->]|[[-> ->]|[-> ->]]]; cbn in Hin; repeat destruct Hin as [<-|Hin]; try destruct Hin; vm_compute; auto.
    - intros ri r v day s e Hr Hv [Hd Hrun] Hs. destruct (days_of _ _ _ Hr Hv day s e) as [E1 E2].
      rewrite E2, Z.add_0_r. rewrite E1 in Hrun. cbn. split; [lia|exact Hrun].
  Qed.
  Lemma fifo_ok : fifo P.
  Proof.
    intros ri r i v day j w day' s s' Hr Hi Hj Hrun Hrun' Hs Hs' Hlt tv tw Hle _. cbn [P p_fwd] in *.
    apply nth_error_In in Hi. apply nth_error_In in Hj. unfold tv, tw in Hle. clear tv tw.
    destruct (vehicle_of _ _ _ Hr Hi) as (a & -> & Ha). destruct (vehicle_of _ _ _ Hr Hj) as (b & -> & Hb).
    unfold no_later, event_time, veh in *. cbn [P p_fwd p_base v_ev d_days d_mam] in *. lia.
  Qed.
  Lemma lbs : lower_bounds_ok P D.
  Proof.
    split.
    - intros [|[|[|l]]]; cbn; lia.
    - intros l _ _. cbn [P p_lb]. lia.
    - intros ri r v s s' s0 s0' Hr Hv Hs Hs' Hlt Hon Hoff _. cbn [P p_fwd] in *.
      destruct (vehicle_of _ _ _ Hr Hv) as (a & -> & _). unfold event_minutes, veh. cbn [v_ev d_days d_mam].
      apply routes in Hr as [[_ ->]|[[_ ->]|[_ ->]]]; cbn in Hs, Hs';
        destruct s as [|[|[|s]]]; destruct s' as [|[|[|s']]]; cbn in Hs, Hs', Hlt; try lia; try (destruct s'; discriminate); try (destruct s; discriminate); try discriminate;
        injection Hs as <-; injection Hs' as <-;
        match goal with |- ?d <= _ + ?e => let x := eval vm_compute in d in let y := eval vm_compute in e in change d with x; change e with y end;
        cbn [Nat.min]; lia.
    - intros l l' d (d0 & Hin & _). cbn in Hin. tauto.
    - intros l H. cbn in H. apply Nat.eqb_eq in H. subst. reflexivity.
    - intros off l d H. discriminate.
  Qed.
  Lemma starts_far : starts_reach_ok P (starts_of ([g1] ++ [g2])).
  Proof.
    split; [|intros ri r day s s' s0 s0' Hr E; apply routes in Hr as [[_ ->]|[[_ ->]|[_ ->]]]; discriminate].
    intros l t ri r s s' s0 s0' (g & Hg & Hin) Hl. exfalso. cbn in Hg.
    destruct Hg as [<-|[<-|[]]]; destruct Hin as [[= <- <-]|[]]; cbn in Hl; discriminate.
  Qed.
  Lemma once : via_once P vias.
  Proof.
    intros ri r w s s' s0 s0' Hr Hw E0 Hs Hs' Ha Ha'. destruct Hw as [<-|[<-|[]]]; [|cbn in E0; discriminate].
    apply routes in Hr as [[_ ->]|[[_ ->]|[_ ->]]]; cbn in Hs, Hs';
      destruct s as [|[|[|s]]]; destruct s' as [|[|[|s']]]; cbn in Hs, Hs'; try reflexivity; try (destruct s'; discriminate); try (destruct s; discriminate); try discriminate;
      injection Hs as <-; injection Hs' as <-; cbn in Ha, Ha'; discriminate.
  Qed.
  Lemma setting : via_setting P vias D [g1; g2] [g1] g2.
  Proof.
    refine (mk_via_setting P vias D [g1; g2] [g1] g2 wf dur endok loc stays cols idx fifo_ok lbs grp (ex_intro _ [] eq_refl) starts_far _).
    intros l t (g & Hg & Hin). destruct Hg as [<-|[<-|[]]]; destruct Hin as [[= <- <-]|[]]; cbn; split; auto; lia.
  Qed.
  Lemma conn : via_connection P vias (fun l t => In (l, t) (g_starts g2)) (transfer_time P) 2 3 630.
  Proof.
    assert (Hd : runs_on (veh 480) 10 /\ runs_on (veh 600) 10) by (unfold runs_on; cbn; lia).
    apply (vconn_station P vias _ _ 2 3 630 2 630); [reflexivity|reflexivity| |reflexivity|reflexivity].
    apply (varrived_ride P vias _ _ 1 2 2 565 600 2 3 630); [|unfold no_later; cbn; lia|].
    - change 565 with (after P 540 (transfer_time P 2 + staying vias 1 2)). change 2%nat with (visited vias 1 2) at 1. apply vready_transfer.
      apply (varrived_ride P vias _ _ 0 0 0 470 480 1 2 540); [|unfold no_later; cbn; lia|].
      + change 0%nat with (visited vias 0 0) at 2. apply vready_start. left; reflexivity.
      + apply (via_ride_intro P vias 0 0 480 1 2 540 0 r0 0 (veh 480) 10 0 2 (st 0) (st 2));
          try reflexivity; try tauto; cbn; try lia; intros; discriminate.
    - apply (via_ride_intro P vias 2 2 600 2 3 630 1 r1 1 (veh 600) 10 0 1 (st 2) (st 3));
        try reflexivity; try tauto; cbn; try lia; intros; discriminate.
  Qed.
  Example C57_nonvacuous :
    via_setting P vias D [g1; g2] [g1] g2 /\ via_once P vias /\
    via_connection P vias (fun l t => In (l, t) (g_starts g2)) (transfer_time P) 2 3 630 /\
    In (mk_journey 470 630 1) (snd (via_raptor P vias 5 [g1; g2])).
  Proof.
    refine (conj setting (conj once (conj conn _))). rewrite results_via. right. left. reflexivity.
  Qed.
End ExampleVia.

(** Without [via_once] optimality fails: the route calls twice at the via (stations 0 - 1 - 2 - 1 - 3, via 1), two vehicles are
    at the second call at the same time.  The slower one, boarded at 0, has passed the via already; the faster one, boarded at 2,
    passes it only now and is dropped on the tie (raptor.h:1221-1243). *)
Module ExampleTie.
  Definition times (v s : nat) : Z := nth s (if Nat.eqb v 0 then [460; 465; 480; 510; 540] else [475; 478; 490; 510; 600]) 600.
  Definition veh (v : nat) : vehicle := mk_vehicle (fun s _ => mk_delta 0 (times v s)) (fun d => (10 <=? d) && (d <? 20)).
  Definition st (l : Z) : stop := mk_stop l true true true true.
  Definition no (_ : nat) := false.
  Definition r := mk_route [st 0; st 1; st 2; st 1; st 3] 3 no no (fun _ => no) [veh 0; veh 1] None.
  Definition tt := mk_tt 4 [r] (fun _ => [0%nat]) (fun _ => 5) (fun _ => []) (fun _ => []) (fun _ d => (10 <=? d) && (d <? 20)).
  Definition P := mk_params true tt (fun l => Nat.eqb l 3) None 99 (fun _ => 0) 10 (fun _ => true) no (fun d => d).
  Definition vias := [mk_via (Nat.eqb 1) 0].
  Definition g := mk_group 470 (470 + 2880) [(0%nat, 470); (2%nat, 470)].
  Lemma routes ri r' : nth_error (tt_routes (p_tt P)) ri = Some r' -> ri = 0%nat /\ r' = r.
  Proof. destruct ri as [|[|ri]]; cbn; intros H; try discriminate; injection H as <-; auto. Qed.
  Lemma vehicles i v : nth_error (r_vehicles r) i = Some v -> (i <= 1)%nat /\ v = veh i.
  Proof. destruct i as [|[|[|i]]]; cbn; intros H; try discriminate; injection H as <-; auto. Qed.
  Lemma stop5 s : (s < length (r_stops r))%nat -> s = 0%nat \/ s = 1%nat \/ s = 2%nat \/ s = 3%nat \/ s = 4%nat.
  Proof. cbn. lia. Qed.
  Lemma setting : via_setting P vias (fun _ => 0) [g] [] g.
  Proof.
    split.
    - split; [|apply static_rt_ok; intros ri r' Hr; apply routes in Hr as [_ ->]; reflexivity].
      intros ri r' v Hr Hv. apply routes in Hr as [_ ->]. apply In_nth_error in Hv as (i & Hi). apply vehicles in Hi as [Hi ->].
      split; [|split]; unfold event_minutes, veh; cbn [v_ev d_days d_mam].
      + intros s e Hl. apply stop5 in Hl. destruct i as [|[|i]]; [| |lia]; destruct Hl as [->|[->|[->|[->| ->]]]]; cbn; lia.
      + intros s Hl. lia.
      + intros s s' [Hs Hl]. assert (Hl0 : (s < length (r_stops r))%nat) by lia. apply stop5 in Hl, Hl0.
        destruct i as [|[|i]]; [| |lia]; destruct Hl as [->|[->|[->|[->| ->]]]]; destruct Hl0 as [->|[->|[->|[->| ->]]]]; cbn; lia.
    - repeat split; cbn; intros; try lia; try tauto; try discriminate.
    - intros H. cbn in H. congruence.
    - split; [|split]; cbn.
      + intros ri r' s0 Hr Hin. apply routes in Hr as [_ ->]. cbn in Hin. repeat destruct Hin as [<-|Hin]; try destruct Hin; cbn; lia.
      + tauto.
      + intros l H. apply Nat.eqb_eq in H. lia.
    - intros w [<-|[]]; cbn; lia.
    - intros ri r' i j v w s e Hr Hij Hv Hw Hs. apply routes in Hr as [_ ->]. apply vehicles in Hv as [Hi ->]. apply vehicles in Hw as [Hj ->].
      apply stop5 in Hs. destruct i as [|[|i]]; destruct j as [|[|j]]; try lia; destruct Hs as [->|[->|[->|[->| ->]]]]; cbn; lia.
    - split.
      + intros ri r' s0 Hr Hin. apply routes in Hr as [-> ->]. cbn. auto.
      + intros ri r' v day s e Hr Hv [Hd Hrun] Hs. apply routes in Hr as [-> ->]. apply In_nth_error in Hv as (i & Hi). apply vehicles in Hi as [Hi ->].
        cbn in Hrun |- *. rewrite Z.add_0_r. split; [lia|exact Hrun].
    - intros ri r' i v day j w day' s s' Hr Hi Hj Hrun Hrun' Hs Hs' Hlt tv tw Hle Htie. cbn [P p_fwd] in *.
      apply routes in Hr as [-> ->]. apply vehicles in Hi as [Hi ->]. apply vehicles in Hj as [Hj ->]. unfold ahead in Htie. cbn [P p_fwd] in Htie.
      unfold tv, tw in *. clear tv tw. unfold no_later, event_time, veh in *. cbn [P p_fwd p_base v_ev d_days d_mam] in *.
      apply stop5 in Hs, Hs'. destruct i as [|[|i]]; destruct j as [|[|j]]; try lia;
        destruct Hs as [->|[->|[->|[->| ->]]]]; destruct Hs' as [->|[->|[->|[->| ->]]]]; try lia; cbn in Hle, Htie |- *;
        try (destruct (Z.eq_dec day day') as [->|]; [specialize (Htie ltac:(lia)); lia|lia]); lia.
    - split.
      + intros; lia.
      + intros; cbn [P p_lb]; lia.
      + intros; lia.
      + intros l l' d (d0 & Hin & _). cbn in Hin. tauto.
      + intros; reflexivity.
      + intros off l d H. discriminate.
    - split.
      + intros g' l t [<-|[]] [[= <- <-]|[[= <- <-]|[]]]; unfold time_range; lia.
      + intros g' [<-|[]]; unfold time_range; cbn; lia.
      + intros g' l t [<-|[]] [[= <- <-]|[[= <- <-]|[]]]; unfold no_later; cbn; lia.
      + intros [|x gs1] g0 gs2 g' E Hin; cbn in E; injection E; [destruct Hin|]. intros E' _. destruct gs1; discriminate.
    - exists []. reflexivity.
    - split; [|intros ri r' day s s' s0 s0' Hr E; apply routes in Hr as [_ ->]; discriminate].
      intros l t ri r' s s' s0 s0' _ Hl. cbn in Hl. discriminate.
    - intros l t (g' & Hg & Hin). destruct Hg as [<-|[]]. destruct Hin as [[= <- <-]|[[= <- <-]|[]]]; cbn; split; auto; lia.
  Qed.
  Lemma conn : via_connection P vias (fun l t => In (l, t) (g_starts g)) (transfer_time P) 1 3 540.
  Proof.
    assert (Hd : runs_on (veh 0) 10) by (unfold runs_on; cbn; lia).
    apply (vconn_station P vias _ _ 1 3 540 1 540); [reflexivity|reflexivity| |reflexivity|reflexivity].
    apply (varrived_ride P vias _ _ 0 0 2 470 480 1 3 540); [|unfold no_later; cbn; lia|].
    - change 0%nat with (visited vias 0 2) at 2. apply vready_start. right; left; reflexivity.
    - apply (via_ride_intro P vias 0 2 480 1 3 540 0 r 0 (veh 0) 10 2 4 (st 2) (st 3));
        try reflexivity; try tauto; cbn; try lia; intros; discriminate.
  Qed.
End ExampleTie.
Theorem C57_tie_refuted : exists P vias D g,
  via_setting P vias D [g] [] g /\
  via_connection P vias (fun l t => In (l, t) (g_starts g)) (transfer_time P) 1 3 540 /\
  snd (via_raptor P vias 0 [g]) = [mk_journey 470 600 0].
Proof.
  exists ExampleTie.P, ExampleTie.vias, (fun _ => 0), ExampleTie.g. split; [exact ExampleTie.setting|]. split; [exact ExampleTie.conn|].
  vm_compute. reflexivity.
Qed.

(** Optimality is relative to travellers who visit a via as soon as they can ([Via_Spec]).  Among all trips that visit the
    vias the search may miss the best one: if the via has several locations (the search accepts all stops equivalent to the
    requested one) and the traveller changes at the first of them, the stay is imposed there, although he could stay later. *)
Module ExampleEager.
  (** Route 0: 0 - 1 (08:00, 08:30), route 1: 1 - 2 (08:40, 08:50), route 2: 2 - 3 (09:20, 09:50).  Via {1, 2}, 20 minutes. *)
  Definition veh (a d : Z) : vehicle :=
    mk_vehicle (fun s _ => mk_delta 0 (a + d * Z.of_nat (Nat.min s 1))) (fun x => x =? 10).
  Definition st (l : Z) : stop := mk_stop l true true true true.
  Definition no (_ : nat) := false.
  Definition r0 := mk_route [st 0; st 1] 3 no no (fun _ => no) [veh 480 30] None.
  Definition r1 := mk_route [st 1; st 2] 3 no no (fun _ => no) [veh 520 10] None.
  Definition r2 := mk_route [st 2; st 3] 3 no no (fun _ => no) [veh 560 30] None.
  Definition tt := mk_tt 4 [r0; r1; r2] (fun l => match l with 0%nat => [0%nat] | 1%nat => [0; 1]%nat | 2%nat => [1; 2]%nat | _ => [2%nat] end)
                         (fun _ => 5) (fun _ => []) (fun _ => []) (fun _ d => d =? 10).
  Definition P := mk_params true tt (fun l => Nat.eqb l 3) None 99 (fun _ => 0) 10 (fun _ => true) no (fun d => d).
  Definition vias := [mk_via (fun l => Nat.eqb l 1 || Nat.eqb l 2) 20].
  Definition g := mk_group 470 (470 + 2880) [(0%nat, 470)].
  Definition the_trip : list presence :=
    (((([Start 0] ++ map Passing [1%nat]) ++ [Staying 1 0]) ++ map Passing [2%nat]) ++ [Staying 2 20]) ++ map Passing [3%nat].
  Lemma is_trip : trip P (fun l t => In (l, t) (g_starts g)) (the_trip ++ [Staying 3 0]) 3 3 590.
  Proof.
    assert (Hd : runs_on (veh 480 30) 10 /\ runs_on (veh 520 10) 10 /\ runs_on (veh 560 30) 10) by (unfold runs_on; cbn; lia).
    apply (trip_station P _ _ 3 3 590 the_trip 590 0); try reflexivity.
    apply (trip_ride P _ _ 2 2 555 560 [3%nat] 3 590); [|unfold no_later; cbn; lia|].
    - change 555 with (after P 530 (transfer_time P 2 + 20)). apply trip_transfer; [|lia].
      apply (trip_ride P _ _ 1 1 515 520 [2%nat] 2 530); [|unfold no_later; cbn; lia|].
      + change 515 with (after P 510 (transfer_time P 1 + 0)). apply trip_transfer; [|lia].
        apply (trip_ride P _ _ 0 0 470 480 [1%nat] 1 510); [|unfold no_later; cbn; lia|].
        * apply trip_start. left; reflexivity.
        * apply (ride_calling_intro P 0 480 _ 1 510 0 r0 0 (veh 480 30) 10 0 1 (st 0) (st 1));
            try reflexivity; try tauto; cbn; try lia; intros; discriminate.
      + apply (ride_calling_intro P 1 520 _ 2 530 1 r1 0 (veh 520 10) 10 0 1 (st 1) (st 2));
          try reflexivity; try tauto; cbn; try lia; intros; discriminate.
    - apply (ride_calling_intro P 2 560 _ 3 590 2 r2 0 (veh 560 30) 10 0 1 (st 2) (st 3));
        try reflexivity; try tauto; cbn; try lia; intros; discriminate.
  Qed.
  Lemma visits_all : visits vias (the_trip ++ [Staying 3 0]).
  Proof.
    cbn. do 4 apply visits_skip. apply visits_take; [cbn; split; [reflexivity|lia]|]. constructor.
  Qed.
End ExampleEager.
Theorem C57_later_stay_refuted : exists P vias g tr,
  trip P (fun l t => In (l, t) (g_starts g)) tr 3 3 590 /\ visits vias tr /\
  snd (via_raptor P vias 5 [g]) = [].
Proof.
  exists ExampleEager.P, ExampleEager.vias, ExampleEager.g, (ExampleEager.the_trip ++ [Staying 3 0]).
  split; [exact ExampleEager.is_trip|]. split; [exact ExampleEager.visits_all|]. vm_compute. reflexivity.
Qed.
Print Assumptions C56_reported_journeys_visit_all_vias.
Print Assumptions C57_via_search_is_optimal.
Print Assumptions C57_tie_refuted.
