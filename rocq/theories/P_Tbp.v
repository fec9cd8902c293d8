(** Property C46: every transfer stored by the pre-processing of the trip based search can really be made.
    The statement uses only the timetable (nth_error on routes, vehicles, stops) and the times of Raptor_Spec. *)
From Coq Require Import List ZArith Bool Arith Lia.
From Verif Require Import Base Time_Model Pareto_Model Calendar_Model Finish_Model Raptor_Model Raptor_Spec Tbp_Model Tbp_Proofs.
Import ListNotations.
Local Open Scope Z_scope.

(** Changing from vehicle [v] (route [r], left at stop [i] on the service day [d]) to vehicle [u] (route [ru], boarded at stop [j], day [e])
    takes [len] minutes and is possible. *)
Record change_possible (P : params) (r : route) (v : vehicle) (i : nat) (d : Z) (ru : route) (u : vehicle) (j : nat) (e : Z) (len : Z) : Prop := mk_change {
  ch_runs_from : runs_on v d;
  ch_runs_to : runs_on u e;
  ch_stops : exists st su, nth_error (r_stops r) i = Some st /\ nth_error (r_stops ru) j = Some su /\
      s_out st = true /\ s_in su = true /\
      ((Z.to_nat (s_loc su) = Z.to_nat (s_loc st) /\ len = tt_transfer_time (p_tt P) (Z.to_nat (s_loc st))) \/
       In (Z.to_nat (s_loc su), len) (tt_footpaths_out (p_tt P) (Z.to_nat (s_loc st))));
  ch_not_ends : (1 <= i)%nat /\ (S j < length (r_stops ru))%nat;
  ch_time : event_time P v d i kArr + len <= event_time P u e j kDep }.

Lemma stop_at_nth r i : (i < length (r_stops r))%nat -> nth_error (r_stops r) i = Some (stop_at r i).
Proof. intros H. unfold stop_at. now apply nth_error_nth'. Qed.

(** Every kept transfer is kept for at least one day, and on each of its days the change it describes is possible, and takes at most
    a day. *)
Theorem C46_transfers_are_feasible P fps0 : p_fwd P = true -> all_vehicles_wf P -> columns_sorted P ->
  (forall l, 0 <= tt_transfer_time (p_tt P) l <= 511) -> (forall l l' d, In (l', d) (tt_footpaths_out (p_tt P) l) -> 0 <= d <= 511) ->
  forall ri r vi v i x, nth_error (tt_routes (p_tt P)) ri = Some r -> nth_error (r_vehicles r) vi = Some v ->
  In x (transfers_of (p_tt P) fps0 ri vi i) ->
  exists ru u len, nth_error (tt_routes (p_tt P)) (x_route x) = Some ru /\ nth_error (r_vehicles ru) (x_vehicle x) = Some u /\
    (exists d, x_bf x d = true) /\
    forall d, x_bf x d = true ->
      change_possible P r v i d ru u (x_stop x) (d + x_day x) len /\
      event_time P u (d + x_day x) (x_stop x) kDep <= event_time P v d i kArr + 1440.
Proof.
  intros Hf Hwf Hcol Htr Hfp ri r vi v i x Hr Hv Hx.
  assert (Er : route_at (p_tt P) ri = r) by (unfold route_at; now apply nth_error_nth).
  assert (Ev : vehicle_at (p_tt P) ri vi = v) by (unfold vehicle_at, vehicle_of; rewrite Er; now apply nth_error_nth).
  apply (transfers_of_ok P fps0 Hwf Hcol (conj Htr Hfp)) in Hx;
    [|apply nth_error_Some; congruence|rewrite Er; apply nth_error_Some; congruence].
  destruct Hx as (n & Hn & E1 & E2 & E3 & Hu & NE & Hd).
  pose proof (neighborhood_ok P (conj Htr Hfp) ri n Hn) as (N1 & N2 & N3 & N4 & N5). rewrite E1, E2, E3 in *.
  unfold n_stops in *. rewrite Er in *. rewrite Ev in *.
  exists (route_at (p_tt P) (x_route x)), (vehicle_at (p_tt P) (x_route x) (x_vehicle x)), (nb_len n).
  split; [apply route_at_nth; eapply route_exists; unfold n_stops; lia|]. split; [now apply vehicle_at_nth|]. split; [exact NE|].
  intros d Hb. destruct (Hd d Hb) as (R1 & R2 & T1 & T2). split; [|exact T2].
  constructor; auto; [|lia]. exists (stop_at r i), (stop_at (route_at (p_tt P) (x_route x)) (x_stop x)).
  split; [apply stop_at_nth; lia|]. split; [apply stop_at_nth; lia|]. auto.
Qed.

From Verif Require Import P_Raptor.
(** The small timetable of P_Raptor.v: the 08:00 from A (arr. 08:30 at B) connects to the 08:40 from B. *)
Example C46_nonvacuous :
  all_vehicles_wf Example1.P /\ columns_sorted Example1.P /\
  (forall l, 0 <= tt_transfer_time (p_tt Example1.P) l <= 511) /\
  (forall l l' d, In (l', d) (tt_footpaths_out (p_tt Example1.P) l) -> 0 <= d <= 511) /\
  map (fun x => (x_route x, x_vehicle x, x_stop x, x_day x, filter (x_bf x) (map Z.of_nat (seq 0 30))))
      (transfers_of (p_tt Example1.P) (fun _ => []) 0 0 1) = [(1%nat, 0%nat, 0%nat, 0, map Z.of_nat (seq 10 10))] /\
  map (fun x => (x_route x, x_vehicle x, x_stop x, x_day x, filter (x_bf x) (map Z.of_nat (seq 0 30))))
      (transfers_of (p_tt Example1.P) (fun _ => []) 0 1 1) = [(1%nat, 0%nat, 0%nat, 1, map Z.of_nat (seq 10 9))].
Proof.
  split; [exact Example1.wf|]. split; [exact Example1.cols|]. split; [intros l; cbn; lia|]. split; [intros l l' d []|].
  split; vm_compute; reflexivity.
Qed.
