(** Property C47: journeys reported by the trip based search are feasible; what happens when its state is used for a second query. *)
From Coq Require Import List ZArith Bool Arith Lia.
From Verif Require Import Base Time_Model Pareto_Model Calendar_Model Finish_Model Raptor_Model Raptor_Spec Raptor_Final.
From Verif Require Import Tb_Model Tbp_Model Tbq_Model Tbq_Proofs P_Raptor.
Import ListNotations.
Local Open Scope Z_scope.

(** Every journey of a forward query without filters and with default transfer times has at most 13 transfers and is a connection of the
    specification that starts no earlier than the journey says. *)
Theorem C47_trip_based_journeys_are_feasible : forall P fps0 s gs j,
  p_fwd P = true -> all_vehicles_wf P -> columns_sorted P -> end_ok P ->
  (forall l, 0 <= tt_transfer_time (p_tt P) l <= 511) -> (forall l l' d, In (l', d) (tt_footpaths_out (p_tt P) l) -> 0 <= d <= 511) ->
  (forall l l' d, In (l', d) (tt_footpaths_in (p_tt P) l) -> In (l, d) (tt_footpaths_out (p_tt P) l')) ->
  (forall d, p_adjust P d = d) -> (forall c, p_allowed_clasz P c = true) -> (forall f, p_require P f = false) ->
  groups_ok P gs -> (forall g l t, In g gs -> In (l, t) (g_starts g) -> 0 <= p_base P * 1440 + t) ->
  (* a state without entries of an earlier query *)
  (forall r i, qs_dist s r i = None) ->
  In j (snd (tb_query P fps0 s gs)) ->
  0 <= j_transfers j < 14 /\
  exists l k, (1 <= k)%nat /\ Z.of_nat k <= j_transfers j + 1 /\
    connection P (start_options P gs (j_start j)) (transfer_time P) k l (j_dest j).
Proof. intros. eapply tb_feasible; eauto. Qed.

Module Example47.
  Import Example1.
  Example C47_nonvacuous :
    p_fwd P = true /\ all_vehicles_wf P /\ columns_sorted P /\ end_ok P /\ groups_ok P [g1; g2] /\
    (forall g l t, In g [g1; g2] -> In (l, t) (g_starts g) -> 0 <= p_base P * 1440 + t) /\
    snd (tb_query P (fun _ => []) fresh_state [g1; g2]) = [mk_journey 530 1990 1; mk_journey 470 550 1].
  Proof.
    split; [reflexivity|]. split; [exact wf|]. split; [exact cols|].
    split; [intros H; now contradiction H|].
    split.
    { constructor.
      - intros g l t Hg Ht. cbn in Hg, Ht. destruct Hg as [<-|[<-|[]]]; cbn in Ht; destruct Ht as [E|[]]; injection E as <- <-; unfold time_range; lia.
      - intros g Hg. destruct Hg as [<-|[<-|[]]]; unfold time_range; cbn; lia.
      - intros g l t Hg Ht. cbn in Hg, Ht. destruct Hg as [<-|[<-|[]]]; cbn in Ht; destruct Ht as [E|[]]; injection E as <- <-; unfold no_later; cbn; lia.
      - intros gs1 g gs2 g' E Hg'. destruct gs1 as [|a [|b gs1]]; [destruct Hg'| |].
        + cbn in E. injection E as <- <- E. destruct Hg' as [<-|[]]. unfold no_later. cbn. lia.
        + cbn in E. injection E as <- <- E. destruct gs1; discriminate. }
    split.
    { intros g l t Hg Ht. cbn in Hg, Ht. destruct Hg as [<-|[<-|[]]]; cbn in Ht; destruct Ht as [E|[]]; injection E as <- <-; cbn; lia. }
    vm_compute. reflexivity.
  Qed.

  (** ** A second query on the same state *)
  (** First query to B, second to C. *)
  Definition PB := mk_params true tt (fun l => Nat.eqb l 1) None 99 (fun l => match l with 0%nat => 30 | _ => 0 end) 10 (fun _ => true) (fun _ => false) (fun d => d).
  Definition after_first := fst (tb_query PB (fun _ => []) fresh_state [g2]).
  (** The journey a fresh state finds is lost: the best arrival times of the first query still prune. *)
  Theorem C47_reused_state_loses_journeys :
    snd (tb_query P (fun _ => []) fresh_state [g2]) = [mk_journey 470 550 1] /\
    snd (tb_query P (fun _ => []) after_first [g2]) = [].
  Proof. split; vm_compute; reflexivity. Qed.

  (** Offsets at the destination: first query 1 minute from B, second query 30 minutes from B. *)
  Definition PO (d : Z) := mk_params true tt (fun l => Nat.eqb l 3) (Some (fun l => if Nat.eqb l 1 then Some d else None)) 3
                                     (fun _ => 0) 10 (fun _ => true) (fun _ => false) (fun d => d).
  Definition after_close := fst (tb_query (PO 1) (fun _ => []) fresh_state [g1]).
  (** The second query reports an arrival 29 minutes before the first possible one. *)
  Theorem C47_reused_state_reports_infeasible_journeys :
    snd (tb_query (PO 30) (fun _ => []) fresh_state [g2]) = [mk_journey 470 540 0] /\
    snd (tb_query (PO 30) (fun _ => []) after_close [g2]) = [mk_journey 470 511 0].
  Proof. split; vm_compute; reflexivity. Qed.
End Example47.

(** ** Stops where leaving the vehicle is forbidden *)
Module Example47b.
  (** Route 0: X(0) 08:00 -> Y(1) 08:10.  Route 1: Y 08:20 -> Z(2) 08:30, no alighting -> W(3) 08:40.  Route 2: Y 08:25 -> Z 08:50. *)
  Definition veh (f : nat -> Z) : vehicle := mk_vehicle (fun s _ => mk_delta 0 (f s)) (fun d => (10 =? d)).
  Definition st (l : Z) : stop := mk_stop l true true true true.
  Definition mk (ss : list stop) (f : nat -> Z) : route := mk_route ss 3 (fun _ => false) (fun _ => false) (fun _ _ => false) [veh f] None.
  Definition r0 := mk [st 0; st 1] (fun s => match s with O => 480 | _ => 490 end).
  Definition r1 := mk [st 1; mk_stop 2 true false true false; st 3] (fun s => match s with O => 500 | 1%nat => 510 | _ => 520 end).
  Definition r2 := mk [st 1; st 2] (fun s => match s with O => 505 | _ => 530 end).
  Definition tt := mk_tt 4 [r0; r1; r2]
    (fun l => match l with 0%nat => [0%nat] | 1%nat => [0%nat; 1%nat; 2%nat] | 2%nat => [1%nat; 2%nat] | 3%nat => [1%nat] | _ => [] end)
    (fun _ => 5) (fun _ => []) (fun _ => []) (fun _ d => d =? 10).
  Definition P := mk_params true tt (fun l => Nat.eqb l 2) None 99 (fun _ => 0) 10 (fun _ => true) (fun _ => false) (fun d => d).
  Definition g := mk_group 470 (470 + 2880) [(0%nat, 470)].
  (** RAPTOR finds X -> Y -> Z with route 2; the trip based search has dropped that transfer: route 1 "reaches" Z earlier. *)
  Theorem C47_alighting_forbidden_refuted :
    connection P (fun l t => In (l, t) (g_starts g)) (transfer_time P) 2 2 530 /\
    snd (raptor P 5 [g]) = [mk_journey 470 530 1] /\
    snd (tb_query P (fun _ => []) fresh_state [g]) = [].
  Proof.
    split; [|split; vm_compute; reflexivity].
    apply conn_station; [reflexivity|reflexivity|].
    apply (arrived_ride P _ _ 1 1 495 505 2 530); [|unfold no_later; cbn; lia|].
    - change 495 with (after P 490 (transfer_time P 1)). apply ready_transfer.
      apply (arrived_ride P _ _ 0 0 470 480 1 490); [|unfold no_later; cbn; lia|].
      + apply ready_start. cbn. auto.
      + apply (ride_intro P 0 480 1 490 0 r0 0 (veh (fun s => match s with O => 480 | _ => 490 end)) 10 0 1 (st 0) (st 1)); try reflexivity; try (unfold runs_on; cbn; lia); cbn; try lia; intros; discriminate.
    - apply (ride_intro P 1 505 2 530 2 r2 0 (veh (fun s => match s with O => 505 | _ => 530 end)) 10 0 1 (st 1) (st 2)); try reflexivity; try (unfold runs_on; cbn; lia); cbn; try lia; intros; discriminate.
  Qed.
End Example47b.
