(** Property theorems C21 (exact bounded shortest distances) and C22 (lower bounds are admissible). *)
From Coq Require Import List ZArith Bool Arith Lia.
From Verif Require Import Base Time_Model Raptor_Model Raptor_Spec Raptor_Base Raptor_Sound Raptor_Final
  Dial_Model Dijkstra_Model Dijkstra_Proofs Lb_Proofs P_Raptor.
Import ListNotations.
Local Open Scope Z_scope.

(** * C21 *)
Section C21.
  Variable L : locations.
  Variable mode : match_mode.
  Variable dest td_dest : list (nat * Z).
  Variable edges : nat -> list edge.

  (** A destination offset of the query, applied to all locations that match it. *)
  Definition matched_offset (x : nat) (d : Z) : Prop :=
    (exists t, In (t, d) dest /\ In x (metas L mode t)) \/ In (x, d) td_dest.
  (** The search starts with the offset at the station of such a location and everything matching that. *)
  Definition search_start (v : nat) (d : Z) : Prop :=
    exists x, matched_offset x d /\ In v (metas L mode (get_root_idx L x)).
  (** [x] is the length of a shortest path (plus offset) to [v] if that is at most five days, otherwise
      "unreachable" (65535). *)
  Definition is_bounded_distance (v : nat) (x : Z) : Prop :=
    (forall d, walk_cost edges search_start v d -> d <= 7200 -> x <= d) /\
    ((0 <= x <= 7200 /\ walk_cost edges search_start v x) \/ x = 65535).

  Hypothesis edges_ok : forall u v w, In (v, w) (edges u) -> (v < lo_n L)%nat /\ 0 <= w.
  Hypothesis offsets_ok : forall x d, matched_offset x d -> 0 <= d <= 7200.
  Hypothesis starts_ok : forall v d, search_start v d -> (v < lo_n L)%nat.

  Lemma matched_offsets x d : matched_offset x d <-> In (x, d) (offsets L mode dest td_dest).
  Proof.
    unfold matched_offset, offsets. rewrite in_app_iff, in_flat_map. split; (intros [H|H]; [left|now right]).
    - destruct H as (t & H1 & H2). exists (t, d). split; auto. apply in_map_iff. exists x. auto.
    - destruct H as ([t e] & H1 & H2). apply in_map_iff in H2. destruct H2 as (y & [= <- <-] & H2). exists t. auto.
  Qed.
  Lemma off_ok x d : In (x, d) (offsets L mode dest td_dest) -> 0 <= d <= 7200.
  Proof. rewrite <- matched_offsets. apply offsets_ok. Qed.
  Lemma seed_start v d : seed L mode dest td_dest v d -> search_start v d.
  Proof.
    unfold seed, seeds. rewrite in_flat_map. intros ([r e] & H & Hin). apply in_map_iff in Hin.
    destruct Hin as (m & [= <- <-] & Hm). apply (proj1 (dest_min_spec L mode dest td_dest off_ok)) in H.
    destruct H as (x & Hx & <-). exists x. split; [now apply matched_offsets|exact Hm].
  Qed.
  Lemma start_seed v d : search_start v d -> exists e, seed L mode dest td_dest v e /\ e <= d.
  Proof.
    intros (x & Hx & Hv). apply matched_offsets in Hx.
    apply (proj2 (dest_min_spec L mode dest td_dest off_ok)) in Hx. destruct Hx as (e & He & Hle).
    exists e. split; auto. unfold seed, seeds. apply in_flat_map. exists (get_root_idx L x, e). split; auto.
    apply in_map_iff. exists v. auto.
  Qed.
  Lemma walk_seed v d : walk_cost edges search_start v d -> exists e, walk_cost edges (seed L mode dest td_dest) v e /\ e <= d.
  Proof.
    induction 1 as [v d H|u v d w _ (e & IH & Hle) He].
    - apply start_seed in H. destruct H as (e & H & Hle). exists e. split; auto. now constructor.
    - exists (e + w). split; [|lia]. now apply walk_edge with u.
  Qed.

  (** The pre-processing terminates without out-of-range accesses.  Every location that is nobody's child gets
      the exact bounded distance; a child location gets the smaller one of its parent's value and its own. *)
  Theorem C21_exact_bounded_distances : exists fuel0 D,
    (forall fuel, (fuel0 <= fuel)%nat -> lower_bounds L mode dest td_dest edges fuel = Done D) /\
    (forall v, (forall i, ~ In v (lo_children L i)) -> is_bounded_distance v (D v)) /\
    (hierarchy_ok L -> forall v p, (v < lo_n L)%nat -> lo_parent L v = Some p ->
       exists own, is_bounded_distance v own /\ D v = Z.min (D p) own).
  Proof.
    destruct (search_spec L mode dest td_dest off_ok edges edges_ok) as (fuel0 & pre & Hdone & Hr & Hw & Ho & _).
    { intros v d H. eapply starts_ok, seed_start, H. }
    assert (HB : forall v, is_bounded_distance v (pre v)).
    { intros v. split.
      - intros d Hd Hle. apply walk_seed in Hd. destruct Hd as (e & He & Hle2).
        destruct (Ho v e He ltac:(lia)). lia.
      - destruct (Hr v) as [H|H]; auto. left. split; auto. specialize (Hw v ltac:(lia)). clear - Hw offsets_ok.
        induction Hw as [v d H|u v d w _ IH He]; [constructor; now apply seed_start|now apply walk_edge with u]. }
    exists fuel0, (hand_down L pre). split; [exact Hdone|]. split.
    - intros v Hv. assert (E : hand_down L pre v = pre v).
      { unfold hand_down. generalize (seq 0 (lo_n L)). intros is. fold (hd_step L). revert pre Hdone Hr Hw Ho HB.
        intros pre _ _ _ _ _. revert pre. induction is as [|i is IH]; intros pre; simpl; auto.
        rewrite IH. fold (hd_step L pre i). rewrite hd_step_spec.
        destruct (existsb _ _) eqn:Ex; auto. apply existsb_exists in Ex. destruct Ex as (c & Hc & Ec).
        apply Nat.eqb_eq in Ec. subst c. now apply Hv in Hc. }
      rewrite E. apply HB.
    - intros [H1 H2 _ H4] v p Hv Hp. exists (pre v). split; auto.
      now apply hand_down_child.
  Qed.
End C21.

(** Non-vacuity: 4 stations, a destination at 0 with offset 5 and one at 3 with offset 0; the second start is
    improved through the first; node 4 is further than five days away. *)
Definition ex_locs (n : nat) : locations := mk_locs n (fun _ => None) (fun _ => []) (fun _ => []) (fun _ => false).
Definition ex_edges (u : nat) : list edge :=
  match u with 0%nat => [(1%nat, 10); (2%nat, 40)] | 1%nat => [(2%nat, 20)] | 2%nat => [(4%nat, 7190)] | 3%nat => [(2%nat, 38)] | _ => [] end.
Example C21_nonvacuous :
  (forall u v w, In (v, w) (ex_edges u) -> (v < 5)%nat /\ 0 <= w) /\
  match lower_bounds (ex_locs 5) kExact [(0%nat, 5); (3%nat, 0)] [] ex_edges 100 with
  | Done D => map D [0; 1; 2; 3; 4]%nat = [5; 15; 35; 0; 65535]
  | _ => False end.
Proof.
  split; [|vm_compute; reflexivity].
  intros u v w H. destruct u as [|[|[|[|u]]]]; cbn in H; repeat destruct H as [[= <- <-]|H]; try tauto; lia.
Qed.
(** If a platform is numbered before its station, the bound is not handed down to the platform's own children
    (the hierarchy condition is needed): location 0 is a child of 1, 1 is a child of 2, the destination is 2. *)
Example C21_child_order_refuted :
  let L := mk_locs 3 (fun l => match l with 0%nat => Some 1%nat | 1%nat => Some 2%nat | _ => None end)
                   (fun l => match l with 1%nat => [0%nat] | 2%nat => [1%nat] | _ => [] end)
                   (fun _ => []) (fun _ => false) in
  match lower_bounds L kExact [(2%nat, 0)] [] (fun _ => []) 10 with
  | Done D => map D [0; 1; 2]%nat = [65535; 0; 0]
  | _ => False end.
Proof. vm_compute. reflexivity. Qed.

(** * C22 *)
(** The query [P] as it is set up by the search: destinations, destination distances and lower bounds are
    computed from the destination offsets [dest] (and time dependent ones [td_dest]) on the lower bound graph
    of the timetable for the profile in use. *)
Record query_setup (L : locations) (mode : match_mode) (dest td_dest : list (nat * Z)) (cars bikes : bool)
                   (P : params) : Prop := mk_setup {
  q_hierarchy : hierarchy_ok L;
  q_locations : lo_n L = tt_n_locations (p_tt P);
  (** incoming footpaths mirror outgoing ones *)
  q_footpaths : forall l l' d, In (l', d) (tt_footpaths_out (p_tt P) l) <-> In (l, d) (tt_footpaths_in (p_tt P) l');
  q_footpath_range : forall l l' d, In (l', d) (tt_footpaths_out (p_tt P) l) ->
                       (l < lo_n L)%nat /\ (l' < lo_n L)%nat /\ 0 <= d;
  (** transfer time settings never shorten a footpath (property C28) *)
  q_adjust : forall d, 0 <= d -> d <= p_adjust P d;
  q_offsets : forall x d, matched_offset L mode dest td_dest x d -> 0 <= d <= 7200;
  q_metas : forall t d x, In (t, d) dest -> In x (metas L mode t) -> (x < lo_n L)%nat;
  q_starts : forall v d, search_start L mode dest td_dest v d -> (v < lo_n L)%nat;
  (** destinations of station-to-station queries have no offset *)
  q_station_offsets : mode <> kIntermodal -> forall t d, In (t, d) dest -> d = 0;
  q_is_dest : forall l, p_is_dest P l = collect_is_dest L mode dest (p_end P) l;
  q_dist : p_dist_to_end P = collect_dist_to_dest L mode dest;
  (** car / bike profiles are only used when car / bike transport is required *)
  q_cars : cars = true -> p_require P 1 = true;
  q_bikes : bikes = true -> p_require P 0 = true;
  q_lb : exists fuel D, lower_bounds L mode dest td_dest (lb_edges L (p_tt P) (p_fwd P) cars bikes) fuel = Done D
                        /\ forall l, p_lb P l = D l }.
(** The same with an arbitrary lower bound graph. *)
Record query_setup_on (L : locations) (mode : match_mode) (dest td_dest : list (nat * Z)) (cars bikes : bool)
                   (P : params) (edges : nat -> list edge) : Prop := mk_setup_on {
  qo_hierarchy : hierarchy_ok L;
  qo_locations : lo_n L = tt_n_locations (p_tt P);
  (** incoming footpaths mirror outgoing ones *)
  qo_footpaths : forall l l' d, In (l', d) (tt_footpaths_out (p_tt P) l) <-> In (l, d) (tt_footpaths_in (p_tt P) l');
  qo_footpath_range : forall l l' d, In (l', d) (tt_footpaths_out (p_tt P) l) ->
                       (l < lo_n L)%nat /\ (l' < lo_n L)%nat /\ 0 <= d;
  (** transfer time settings never shorten a footpath (property C28) *)
  qo_adjust : forall d, 0 <= d -> d <= p_adjust P d;
  qo_offsets : forall x d, matched_offset L mode dest td_dest x d -> 0 <= d <= 7200;
  qo_metas : forall t d x, In (t, d) dest -> In x (metas L mode t) -> (x < lo_n L)%nat;
  qo_starts : forall v d, search_start L mode dest td_dest v d -> (v < lo_n L)%nat;
  (** destinations of station-to-station queries have no offset *)
  qo_station_offsets : mode <> kIntermodal -> forall t d, In (t, d) dest -> d = 0;
  qo_is_dest : forall l, p_is_dest P l = collect_is_dest L mode dest (p_end P) l;
  qo_dist : p_dist_to_end P = collect_dist_to_dest L mode dest;
  (** car / bike profiles are only used when car / bike transport is required *)
  qo_cars : cars = true -> p_require P 1 = true;
  qo_bikes : bikes = true -> p_require P 0 = true;
  qo_lb : exists fuel D, lower_bounds L mode dest td_dest edges fuel = Done D
                        /\ forall l, p_lb P l = D l }.

Section C22On.
  Variable L : locations.
  Variable mode : match_mode.
  Variable dest td_dest : list (nat * Z).
  Variable cars bikes : bool.
  Variable P : params.
  Variable edges : nat -> list edge.
  Hypothesis S : query_setup_on L mode dest td_dest cars bikes P edges.
  Hypothesis Hwf : all_vehicles_wf P.
  Hypothesis Hdur : durations_ok P.
  Hypothesis Hend : end_ok P.
  Hypothesis Hloc : locations_ok P.
  Notation root := (get_root_idx L).
  (** The graph: its nodes are locations, its weights durations; it covers walks and rides between stations. *)
  Hypothesis Hclosed : forall u v w, In (v, w) (edges u) -> (v < lo_n L)%nat /\ 0 <= w.
  Hypothesis Hwalk_edge : forall l l' d, In (l', d) (if p_fwd P then tt_footpaths_out (p_tt P) l else tt_footpaths_in (p_tt P) l) ->
    root l <> root l' -> exists w, In (root l, w) (edges (root l')) /\ w <= d.
  Hypothesis Hride_edge : forall ri r v s, nth_error (tt_routes (p_tt P)) ri = Some r -> In v (r_vehicles r) ->
    route_in_profile cars bikes r = true -> (Datatypes.S s < length (r_stops r))%nat ->
    let a := route_loc r (if p_fwd P then s else Datatypes.S s) in
    let b := route_loc r (if p_fwd P then Datatypes.S s else s) in
    root a <> root b -> exists w, In (root a, w) (edges (root b)) /\ w <= event_minutes v (Datatypes.S s) kArr - event_minutes v s kDep.
  Let HH := qo_hierarchy _ _ _ _ _ _ _ _ S.

  Lemma lower_bounds_ok_on : exists D, lower_bounds_ok P D.
  Proof.
    clearbody HH.
    destruct (qo_lb _ _ _ _ _ _ _ _ S) as (fuel & D & ED & Hlb).
    assert (Hoff : forall x d, In (x, d) (offsets L mode dest td_dest) -> 0 <= d <= 7200).
    { intros x d H. apply (qo_offsets _ _ _ _ _ _ _ _ S x d). now apply matched_offsets. }
    destruct (search_spec L mode dest td_dest Hoff edges Hclosed) as (fuel0 & pre & Hdone & Hr & _ & Ho & Hrel).
    { intros v d H. eapply (qo_starts _ _ _ _ _ _ _ _ S). eapply seed_start; eauto. apply S. }
    assert (ED' : D = hand_down L pre).
    { specialize (Hdone (Nat.max fuel0 fuel) ltac:(lia)).
      assert (M : lower_bounds L mode dest td_dest edges (Nat.max fuel0 fuel) = Done D).
      { revert ED. unfold lower_bounds. destruct (init L mode dest td_dest) as [[dd q]|]; auto.
        assert (Hmono : forall f f' dd q X, loop edges 65535 f dd q = Done X -> (f <= f')%nat -> loop edges 65535 f' dd q = Done X).
        { clear. induction f as [|f IH]; intros f' dd q X H Hf.
          - simpl in H. destruct (dial_empty q) eqn:Ee; [|discriminate]. destruct f'; simpl; rewrite Ee; auto.
          - destruct f' as [|f']; [lia|]. simpl in *. destruct (dial_empty q); auto.
            destruct (dial_top q) as [[l q1]|]; auto. destruct (dial_pop q1) as [q2|]; auto.
            destruct (_ <? _); [apply IH; auto; lia|].
            destruct (fold_left _ _ _) as [[d' q3]|]; auto. apply IH; auto; lia. }
        destruct (loop edges 65535 fuel dd q) eqn:El; try discriminate.
        intros [= <-]. now rewrite (Hmono _ (Nat.max fuel0 fuel) _ _ _ El ltac:(lia)). }
      rewrite Hdone in M. now injection M. }
    set (cap := fun x : Z => Z.min x 7201).
    set (is_end := fun l => is_intermodal mode && Nat.eqb l (p_end P)).
    set (E := fun l => if is_end l then 0 else if Nat.ltb l (lo_n L) then cap (pre (root l)) else 7201).
    assert (Hcap : forall l, 0 <= E l <= 7201).
    { intros l. unfold E, cap. destruct (is_end l); [lia|]. destruct (Nat.ltb l (lo_n L)); [|lia].
      specialize (Hr (root l)). lia. }
    assert (Hpre : forall l, (l < lo_n L)%nat -> is_end l = false -> E l = cap (pre (root l))).
    { intros l Hl He. unfold E. rewrite He. now rewrite (proj2 (Nat.ltb_lt _ _) Hl). }
    (* destination offsets bound the distance *)
    assert (Hdest : forall x d, In (x, d) (offsets L mode dest td_dest) -> pre (root x) <= d).
    { intros x d H. pose proof (Hoff x d H).
      destruct (start_seed L mode dest td_dest (fun x d H => qo_offsets _ _ _ _ _ _ _ _ S x d H) (root x) d) as (e & He & Hle).
      { exists x. split; [now apply matched_offsets|]. now apply metas_root. }
      destruct (Ho (root x) e) as [_ Hp]; [now constructor|lia|lia]. }
    assert (Hstep : forall a b x, (a < lo_n L)%nat -> (b < lo_n L)%nat -> is_end a = false -> is_end b = false -> 0 <= x ->
              (root a <> root b -> exists w, In (root a, w) (edges (root b)) /\ w <= x) -> E a <= x + E b).
    { intros a b x Ha Hb Hea Heb Hx He. rewrite (Hpre a), (Hpre b) by auto.
      destruct (Nat.eq_dec (root a) (root b)) as [->|Hne].
      - unfold cap. lia.
      - destruct (He Hne) as (w & Hin & Hw). destruct (Hclosed _ _ _ Hin) as [_ Hw0].
        specialize (Hrel _ _ _ Hin). pose proof (Hr (root b)). unfold cap. lia. }
    assert (Hint : is_intermodal mode = true <-> p_dist_to_end P <> None).
    { rewrite (qo_dist _ _ _ _ _ _ _ _ S). unfold collect_dist_to_dest. destruct (is_intermodal mode); split; congruence. }
    assert (Hstops : forall ri r s, nth_error (tt_routes (p_tt P)) ri = Some r -> (s < length (r_stops r))%nat ->
              (route_loc r s < lo_n L)%nat /\ is_end (route_loc r s) = false).
    { intros ri r s Hri Hs. split.
      - pose proof (proj1 Hloc) as H1. rewrite (qo_locations _ _ _ _ _ _ _ _ S). unfold route_loc. eapply H1; eauto. now apply nth_In.
      - unfold is_end. destruct (is_intermodal mode) eqn:Ei; auto. cbn [andb]. apply Nat.eqb_neq.
        destruct (Hend (proj1 Hint eq_refl)) as (_ & Hst & _). unfold route_loc. eapply Hst; eauto. now apply nth_In. }
    assert (Hride : forall ri r v s n, nth_error (tt_routes (p_tt P)) ri = Some r -> In v (r_vehicles r) ->
              route_in_profile cars bikes r = true -> (s + Datatypes.S n < length (r_stops r))%nat ->
              E (route_loc r (if p_fwd P then s else s + Datatypes.S n)%nat)
              <= event_minutes v (s + Datatypes.S n) kArr - event_minutes v s kDep
                 + E (route_loc r (if p_fwd P then s + Datatypes.S n else s)%nat)).
    { intros ri r v s n Hri Hv Hprof. induction n as [|n IH]; intros Hlen.
      - replace (s + 1)%nat with (Datatypes.S s) in * by lia.
        destruct (Hstops ri r s Hri ltac:(lia)) as (A1 & A2). destruct (Hstops ri r (Datatypes.S s) Hri ltac:(lia)) as (B1 & B2).
        destruct (proj1 Hwf _ _ _ Hri Hv) as (_ & _ & W3). specialize (W3 s (Datatypes.S s) ltac:(lia)).
        pose proof (Hride_edge ri r v s Hri Hv Hprof ltac:(lia)) as He. cbv zeta in He.
        apply Hstep; try (destruct (p_fwd P); assumption); try lia; try exact He.
      - specialize (IH ltac:(lia)). set (m := (s + Datatypes.S n)%nat) in *.
        replace (s + Datatypes.S (Datatypes.S n))%nat with (Datatypes.S m) in * by lia.
        destruct (Hstops ri r m Hri ltac:(lia)) as (A1 & A2). destruct (Hstops ri r (Datatypes.S m) Hri ltac:(lia)) as (B1 & B2).
        destruct (proj1 Hwf _ _ _ Hri Hv) as (_ & W2 & W3). specialize (W3 m (Datatypes.S m) ltac:(lia)). specialize (W2 m ltac:(lia)).
        pose proof (Hride_edge ri r v m Hri Hv Hprof ltac:(lia)) as He. cbv zeta in He.
        assert (Hs1 : E (route_loc r (if p_fwd P then m else Datatypes.S m)) <=
                event_minutes v (Datatypes.S m) kArr - event_minutes v m kDep + E (route_loc r (if p_fwd P then Datatypes.S m else m))).
        { apply Hstep; try (destruct (p_fwd P); assumption); try lia; try exact He. }
        destruct (p_fwd P); lia. }
    assert (Hnth : forall (r : route) s st, nth_error (r_stops r) s = Some st ->
              Z.to_nat (s_loc st) = route_loc r s /\ (s < length (r_stops r))%nat).
    { intros r s st H. split.
      - unfold route_loc. now rewrite (nth_error_nth _ _ _ H).
      - apply nth_error_Some. congruence. }
    exists E. split.
    - intros l. specialize (Hcap l). lia.
    - intros l Hl Hle. unfold E in *.
      assert (Hne : is_end l = false).
      { unfold is_end. destruct (is_intermodal mode) eqn:Ei; auto. cbn [andb]. apply Nat.eqb_neq. apply Hl, Hint. reflexivity. }
      rewrite Hne in *. destruct (Nat.ltb_spec l (lo_n L)); [|lia].
      rewrite Hlb, ED'. pose proof (hand_down_le L HH pre l ltac:(auto)). unfold cap in *. lia.
    - intros ri r v s s' st st' Hri Hv Hs Hs' Hlt _ _ Hfl.
      destruct (Hnth _ _ _ Hs) as (-> & L1). destruct (Hnth _ _ _ Hs') as (-> & L2).
      assert (Hprof : route_in_profile cars bikes r = true).
      { unfold route_in_profile. apply andb_true_iff. split; apply negb_true_iff, andb_false_iff.
        - destruct cars eqn:Ec; auto. right. apply negb_false_iff, orb_true_iff.
          apply (Hfl 1%nat); [lia|]. now apply (qo_cars _ _ _ _ _ _ _ _ S).
        - destruct bikes eqn:Eb; auto. right. apply negb_false_iff, orb_true_iff.
          apply (Hfl 0%nat); [lia|]. now apply (qo_bikes _ _ _ _ _ _ _ _ S). }
      destruct (p_fwd P) eqn:Ef.
      + specialize (Hride ri r v s (s' - s - 1)%nat Hri Hv Hprof).
        replace (s + Datatypes.S (s' - s - 1))%nat with s' in Hride by lia. specialize (Hride L2). lia.
      + specialize (Hride ri r v s' (s - s' - 1)%nat Hri Hv Hprof).
        replace (s' + Datatypes.S (s - s' - 1))%nat with s in Hride by lia. specialize (Hride L1). lia.
    - intros l l' d (d0 & Hin & ->).
      assert (Hd0 : 0 <= d0) by (destruct Hdur as (_ & _ & H & _); eapply H; eauto).
      pose proof (qo_adjust _ _ _ _ _ _ _ _ S d0 Hd0) as Ha.
      assert (Hln : (l < lo_n L)%nat /\ (l' < lo_n L)%nat).
      { destruct (p_fwd P); [|apply (qo_footpaths _ _ _ _ _ _ _ _ S) in Hin]; apply (qo_footpath_range _ _ _ _ _ _ _ _ S) in Hin; tauto. }
      destruct (is_end l) eqn:Eel.
      { unfold E at 1. rewrite Eel. specialize (Hcap l'). lia. }
      assert (Eel' : is_end l' = false).
      { unfold is_end. destruct (is_intermodal mode) eqn:Ei; auto. cbn [andb]. apply Nat.eqb_neq. intros ->.
        destruct (Hend (proj1 Hint eq_refl)) as (_ & _ & Hno). now apply (Hno l d0). }
      assert (E l <= d0 + E l').
      { apply Hstep; try tauto. intros Hne.
        apply Hwalk_edge; auto. }
      lia.
    - intros l Hl. unfold E. destruct (is_end l) eqn:Ee; auto.
      rewrite (qo_is_dest _ _ _ _ _ _ _ _ S) in Hl. unfold collect_is_dest in Hl. unfold is_end in Ee.
      destruct (is_intermodal mode) eqn:Ei; [rewrite Hl in Ee; discriminate|].
      apply existsb_exists in Hl. destruct Hl as ([t d] & Hin & Hm). apply existsb_exists in Hm.
      destruct Hm as (x & Hx & Ex). apply Nat.eqb_eq in Ex. subst x. cbn [fst] in Hx.
      rewrite (proj2 (Nat.ltb_lt _ _) (qo_metas _ _ _ _ _ _ _ _ S t d l Hin Hx)).
      assert (d = 0) by (eapply (qo_station_offsets _ _ _ _ _ _ _ _ S); eauto; destruct mode; discriminate). subst d.
      specialize (Hdest l 0). pose proof (Hr (root l)). unfold cap.
      assert (pre (root l) <= 0); [|lia]. apply Hdest. apply matched_offsets. left. eauto.
    - intros off l d Hoffs Hd. destruct (is_end l) eqn:Ee.
      { unfold E. rewrite Ee. destruct Hdur as (_ & _ & _ & H). eapply H; eauto. }
      rewrite (qo_dist _ _ _ _ _ _ _ _ S) in Hoffs. unfold collect_dist_to_dest in Hoffs.
      destruct (is_intermodal mode) eqn:Ei; [|discriminate]. injection Hoffs as <-.
      assert (G : forall ds acc, (acc = 65535 \/ exists t, In (t, acc) dest /\ In l (metas L mode t)) -> incl ds dest ->
        let r := fold_left (fun acc (o : nat * Z) => if existsb (Nat.eqb l) (metas L mode (fst o)) then Z.min acc (to_u16 (snd o)) else acc) ds acc in
        r = 65535 \/ exists t, In (t, r) dest /\ In l (metas L mode t)).
      { induction ds as [|[t e] ds IH]; intros acc Hacc Hincl; simpl; auto.
        apply IH; [|intros x Hx; apply Hincl; now right].
        destruct (existsb _ _) eqn:Ex; auto. apply existsb_exists in Ex. destruct Ex as (x & Hx & Exx).
        apply Nat.eqb_eq in Exx. subst x.
        assert (He : 0 <= e <= 7200).
        { apply (qo_offsets _ _ _ _ _ _ _ _ S l e). left. exists t. split; auto. apply Hincl. now left. }
        cbn [fst snd]. unfold to_u16. rewrite Z.mod_small by lia.
        destruct (Z.min_spec acc e) as [[_ ->]|[_ ->]]; auto.
        right. exists t. split; auto. apply Hincl. now left. }
      specialize (G dest kUnreachable (or_introl eq_refl) (incl_refl _)). cbv zeta in G.
      set (r := fold_left _ dest kUnreachable) in *.
      destruct (Z.eqb_spec r kUnreachable) as [|Hne]; [discriminate|]. injection Hd as <-.
      destruct G as [G|(t & Hin & Hm)]; [contradiction|].
      rewrite Hpre; auto; [|eapply (qo_metas _ _ _ _ _ _ _ _ S); eauto].
      assert (pre (root l) <= r). { apply Hdest. apply matched_offsets. left. eauto. }
      unfold cap. lia.
  Qed.
End C22On.

Lemma setup_on L mode dest td_dest cars bikes P : query_setup L mode dest td_dest cars bikes P ->
  query_setup_on L mode dest td_dest cars bikes P (lb_edges L (p_tt P) (p_fwd P) cars bikes).
Proof. intros [H1 H2 H3 H4 H5 H6 H7 H8 H9 H10 H11 H12 H13 H14]. constructor; auto. Qed.
Lemma lower_bounds_ok_exists L mode dest td_dest cars bikes P : query_setup L mode dest td_dest cars bikes P ->
  all_vehicles_wf P -> durations_ok P -> end_ok P -> locations_ok P -> index_ok P -> exists D, lower_bounds_ok P D.
Proof.
  intros S Hwf Hdur Hend Hloc Hidx. pose proof (q_hierarchy _ _ _ _ _ _ _ S) as HH. pose proof (q_locations _ _ _ _ _ _ _ S) as Hn.
  pose proof (q_footpaths _ _ _ _ _ _ _ S) as Hf. pose proof (q_footpath_range _ _ _ _ _ _ _ S) as Hr.
  apply (lower_bounds_ok_on L mode dest td_dest cars bikes P _ (setup_on _ _ _ _ _ _ _ S) Hwf Hdur Hend Hloc).
  - exact (lb_closed L P cars bikes HH Hn Hwf Hloc Hf Hr).
  - intros l l' d H Hne. exact (walk_edge_ok L P cars bikes HH Hn Hf Hr l l' d H Hne).
  - intros ri r v s Hri Hv Hp Hs. exact (ride_edge_ok L P cars bikes HH Hn Hwf Hloc (proj1 Hidx) ri r v s Hri Hv Hp Hs).
Qed.

(** The pre-computed bound of a location never exceeds the duration of a connection that starts there, unless
    the connection takes more than five days. *)
Theorem C22_bounds_never_exceed_travel_time : forall L mode dest td_dest cars bikes P l0 t0 k l t,
  query_setup L mode dest td_dest cars bikes P ->
  all_vehicles_wf P -> durations_ok P -> end_ok P -> locations_ok P -> index_ok P ->
  (p_dist_to_end P <> None -> l0 <> p_end P) ->
  connection P (fun x y => x = l0 /\ y = t0) (transfer_time P) k l t ->
  Z.abs (t - t0) <= 7200 -> p_lb P l0 <= Z.abs (t - t0).
Proof.
  intros L mode dest td_dest cars bikes P l0 t0 k l t S Hwf Hdur Hend Hloc Hidx Hl0 Hc Hle.
  destruct (lower_bounds_ok_exists L mode dest td_dest cars bikes P S Hwf Hdur Hend Hloc Hidx) as (D & HD).
  set (el := fun t => if p_fwd P then t - t0 else t0 - t).
  assert (Htr : forall l, 0 <= transfer_time P l).
  { intros x. destruct Hdur as (H1 & H2 & _). unfold transfer_time. auto. }
  assert (HR : forall n, (forall l t, arrived P (fun x y => x = l0 /\ y = t0) (transfer_time P) n l t -> D l0 <= el t + D l) ->
                         forall l t, ready P (fun x y => x = l0 /\ y = t0) (transfer_time P) n l t -> D l0 <= el t + D l).
  { intros n HA x y Hrd. inversion Hrd as [a b [-> ->]|n' a b Ha|n' a b c d Ha Hw]; subst.
    - unfold el. destruct (p_fwd P); lia.
    - apply HA in Ha. specialize (Htr x). unfold el, after in *. destruct (p_fwd P); lia.
    - apply HA in Ha. pose proof (lb_walk _ _ HD _ _ _ Hw). unfold el, after in *. destruct (p_fwd P); lia. }
  assert (HA : forall n l t, arrived P (fun x y => x = l0 /\ y = t0) (transfer_time P) n l t -> D l0 <= el t + D l).
  { induction n as [|n IH]; intros x y Ha; inversion Ha as [n' a b tb c ta Hrd Hno Hride]; subst.
    apply (HR n IH) in Hrd.
    pose proof (ride_ok_order P Hwf _ _ _ _ Hride) as Hord. unfold Raptor_Base.o in Hord.
    destruct Hride as [ri r vi v day s1 s2 st st' Hr Hv Hrun Hs1 Hs2 Hlt <- <- Hon Hoff Hcl Hsec -> ->].
    assert (Hfl : has_required_flags P r).
    { intros f Hf Hreq. destruct (Hsec f (Nat.min s1 s2) Hf Hreq) as [H1|[H1 _]]; auto. destruct (p_fwd P); lia. }
    pose proof (lb_ride _ _ HD ri r v s1 s2 st st' Hr (nth_error_In _ _ Hv) Hs1 Hs2 Hlt Hon Hoff Hfl) as H.
    unfold no_later, el, event_time, event_minutes in *. destruct (p_fwd P); lia. }
  assert (Hfin : D l0 <= el t).
  { destruct Hc as [Hn Hd Ha|l1 t1 d Hn Hd Ha Hw ->|off l1 t1 d Ho Hd -> Ha Hoff ->].
    - apply HA in Ha. rewrite (lb_dest _ _ HD l Hd) in Ha. lia.
    - apply HA in Ha. pose proof (lb_walk _ _ HD _ _ _ Hw). rewrite (lb_dest _ _ HD l Hd) in *.
      unfold el, after in *. destruct (p_fwd P); lia.
    - apply HA in Ha. pose proof (lb_offset _ _ HD _ _ _ Ho Hoff). unfold el, after in *. destruct (p_fwd P); lia. }
  pose proof (lb_nonneg _ _ HD l0). assert (el t = Z.abs (t - t0)) by (unfold el in *; destruct (p_fwd P); lia).
  pose proof (lb_value _ _ HD l0 Hl0). lia.
Qed.

(** Search and pre-processing together: optimality (C18) with the bounds the search computes itself. *)
Theorem C22_search_with_computed_bounds_is_optimal : forall L mode dest td_dest cars bikes P mt gs gs1 g gs2 K l a,
  query_setup L mode dest td_dest cars bikes P ->
  all_vehicles_wf P -> durations_ok P -> end_ok P -> locations_ok P ->
  columns_sorted P -> index_ok P -> fifo P ->
  groups_ok P gs -> gs = gs1 ++ g :: gs2 ->
  starts_reach_ok P (starts_of (gs1 ++ [g])) ->
  (forall l t, starts_of (gs1 ++ [g]) l t -> (l < tt_n_locations (p_tt P))%nat /\ p_is_dest P l = false) ->
  (forall g', In g' (gs1 ++ [g]) -> no_later P a (g_worst g')) ->
  no_later P a (after P (g_start g) 7200) -> -32768 < a < 32767 ->
  (K <= Nat.min mt 14 + 1)%nat ->
  connection P (fun l t => In (l, t) (g_starts g)) (transfer_time P) K l a ->
  exists j, In j (snd (raptor P mt gs)) /\ j_transfers j <= Z.of_nat K - 1 /\
            no_later P (j_dest j) a /\ no_later P (g_start g) (j_start j).
Proof.
  intros L mode dest td_dest cars bikes P mt gs gs1 g gs2 K l a S Hwf Hdur Hend Hloc Hcol Hidx Hfifo.
  intros. destruct (lower_bounds_ok_exists L mode dest td_dest cars bikes P S Hwf Hdur Hend Hloc Hidx) as (D & HD).
  eapply C18_search_is_optimal; eauto.
Qed.

(** * Non-vacuity of C22: the example timetable of C18, with the bounds computed by the model *)
Module Example3.
  Definition L := mk_locs 3 (fun _ => None) (fun _ => []) (fun _ => []) (fun _ => false).
  Definition dest := [(2%nat, 0)].
  Definition lb : nat -> Z :=
    match lower_bounds L kExact dest [] (lb_edges L Example1.tt true false false) 10 with Done D => D | _ => fun _ => -1 end.
  Example bounds : map lb [0; 1; 2]%nat = [60; 30; 0].
  Proof. vm_compute. reflexivity. Qed.
  Definition P := mk_params true Example1.tt (collect_is_dest L kExact dest 99) None 99 lb 10 (fun _ => true) (fun _ => false) (fun d => d).

  Lemma setup : query_setup L kExact dest [] false false P.
  Proof.
    split; try discriminate; try reflexivity; cbn.
    - split; cbn; try discriminate; try tauto. intros i c. split; [tauto|intros [H _]; discriminate].
    - tauto.
    - intros x d [(t & [[= <- <-]|[]] & Hm)|[]]. lia.
    - intros t d x [[= <- <-]|[]] [<-|[]]. lia.
    - intros v d (x & [(t & [[= <- <-]|[]] & [<-|[]])|[]] & [<-|[]]). cbn. lia.
    - intros _ t d [[= <- <-]|[]]. reflexivity.
    - unfold lb. exists 10%nat.
      destruct (lower_bounds L kExact dest [] (lb_edges L Example1.tt true false false) 10) as [D| |] eqn:E.
      + exists D. auto.
      + vm_compute in E. discriminate.
      + vm_compute in E. discriminate.
  Qed.
  Lemma endok : end_ok P.
  Proof. intros H. cbn in H. congruence. Qed.
  Lemma loc : locations_ok P.
  Proof.
    destruct Example1.loc as (H1 & H2 & _). split; [exact H1|]. split; [exact H2|].
    intros l H. cbn in H. rewrite !orb_false_r in H. apply Nat.eqb_eq in H. cbn. lia.
  Qed.
  Example C22_nonvacuous :
    query_setup L kExact dest [] false false P /\ all_vehicles_wf P /\ durations_ok P /\ end_ok P /\ locations_ok P /\
    columns_sorted P /\ index_ok P /\ fifo P /\
    connection P (fun l t => l = 0%nat /\ t = 480) (transfer_time P) 2 2 550 /\ p_lb P 0%nat = 60 /\
    snd (raptor P 5 [Example1.g1; Example1.g2]) = [mk_journey 530 1990 1; mk_journey 470 550 1].
  Proof.
    refine (conj setup (conj Example1.wf (conj Example1.dur (conj endok (conj loc (conj Example1.cols
      (conj Example1.idx (conj Example1.fifo_ok (conj _ (conj _ _)))))))))).
    - apply conn_station; auto.
      assert (Hd : runs_on (Example1.veh 480 510) 10 /\ runs_on (Example1.veh 520 550) 10) by (unfold runs_on; cbn; lia).
      apply (arrived_ride P _ _ 1 1 515 520 2 550); [|unfold no_later; cbn; lia|].
      + change 515 with (after P 510 (transfer_time P 1)). apply ready_transfer.
        apply (arrived_ride P _ _ 0 0 480 480 1 510); [|unfold no_later; cbn; lia|].
        * apply ready_start. auto.
        * eapply (ride_intro P 0%nat 480 1%nat 510 0%nat Example1.r0 0%nat (Example1.veh 480 510) 10 0%nat 1%nat (Example1.st 0) (Example1.st 1));
            try reflexivity; try tauto; cbn; try lia; intros; discriminate.
      + eapply (ride_intro P 1%nat 520 2%nat 550 1%nat Example1.r1 0%nat (Example1.veh 520 550) 10 0%nat 1%nat (Example1.st 1) (Example1.st 2));
          try reflexivity; try tauto; cbn; try lia; intros; discriminate.
    - vm_compute. reflexivity.
    - vm_compute. reflexivity.
  Qed.
End Example3.

Print Assumptions C21_exact_bounded_distances.
Print Assumptions C22_bounds_never_exceed_travel_time.
Print Assumptions C22_search_with_computed_bounds_is_optimal.
