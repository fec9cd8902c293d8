(** Property C55: queries that start inside a running transport (src/routing/ontrip_train.cc). *)
From Coq Require Import List ZArith Bool Arith Lia.
From Verif Require Import Base Time_Model Raptor_Model Query_Model Start_Model.
Import ListNotations.
Local Open Scope Z_scope.

(** ** Model *)
(** timetable.h:185-190 [event_time] of the transport [v] on the day with index [day]; [first_day] is the first internal day. *)
Definition tt_event_time (first_day : Z) (v : vehicle) (day : Z) (i : nat) (e : ev_type) : Z :=
  (first_day + day) * 1440 + delta_as_duration (v_ev v i e).
(** A start offset of a query (query.h:28-47): location, duration (int16 minutes), transport mode id. *)
Record offset3 := mk_off3 { of_target : nat; of_duration : Z; of_mode : Z }.

(** ontrip_train.cc:13-39; [None]: an exception (utl::verify).  [starts] are the starts the query already has; the result is the new list
    of starts and the start time. *)
Definition generate_ontrip_train_query (tt : timetable) (first_day : Z) (r : route) (v : vehicle) (day : Z) (stop_idx : nat)
           (starts : list offset3) : option (list offset3 * Z) :=
  if Nat.eqb stop_idx 0 then None
  else if negb (Nat.ltb stop_idx (length (r_stops r))) then None
  else
    let time_at_first := tt_event_time first_day v day stop_idx kArr in
    Some (fold_left (fun starts i =>
                       let l := Z.to_nat (s_loc (nth i (r_stops r) (mk_stop 0 false false false false))) in
                       let arrival_with_transfer := tt_event_time first_day v day i kArr + tt_transfer_time tt l in
                       starts ++ [mk_off3 l (to_i16 (arrival_with_transfer - time_at_first)) (to_u8 (Z.of_nat i))])
                    (seq stop_idx (length (r_stops r) - stop_idx)) starts,
          time_at_first).

(** ** Specification *)
(** A passenger of the transport [v] that reaches stop number [from] at [t0] can leave it there or at any later stop [i]; after the
    transfer time of that stop, at [ready], another transport can be boarded. *)
Record alight (tt : timetable) (first_day : Z) (r : route) (v : vehicle) (day : Z) (from i : nat) (l : nat) (ready : Z) : Prop := mk_alight {
  al_after : (from <= i)%nat;
  al_stop : exists s, nth_error (r_stops r) i = Some s /\ l = Z.to_nat (s_loc s);
  al_ready : ready = (first_day + day) * 1440 + delta_as_duration (v_ev v i kArr) + tt_transfer_time tt l }.
(** A trip takes less than 22 days. *)
Definition short_trip (tt : timetable) (first_day : Z) (r : route) (v : vehicle) (day : Z) (from : nat) : Prop :=
  forall i l t, alight tt first_day r v day from i l t ->
    -32768 <= t - tt_event_time first_day v day from kArr <= 32767.

(** ** C55 *)
(** The query starts at the arrival of the transport at the given stop.  Its starts are the ones it had before, followed by one start for
    every possible place to leave the transport, in the order of travel; start time plus offset is the moment a new transport can be
    boarded there.  The function fails exactly for the first stop and for stops that do not exist. *)
Theorem C55_starts_are_the_possible_exits : forall tt first_day r v day from starts,
  short_trip tt first_day r v day from ->
  match generate_ontrip_train_query tt first_day r v day from starts with
  | None => from = O \/ (length (r_stops r) <= from)%nat
  | Some (starts', t0) =>
      (0 < from < length (r_stops r))%nat /\
      t0 = (first_day + day) * 1440 + delta_as_duration (v_ev v from kArr) /\
      exists added, starts' = starts ++ added /\ length added = (length (r_stops r) - from)%nat /\
        (forall o, In o added <-> exists i l t, alight tt first_day r v day from i l t /\ o = mk_off3 l (t - t0) (Z.of_nat i mod 256)) /\
        (forall k o, nth_error added k = Some o -> exists l t, alight tt first_day r v day from (from + k) l t /\ t0 + of_duration o = t /\ of_target o = l)
  end.
Proof.
  intros tt fd r v day from starts HS. unfold generate_ontrip_train_query.
  destruct (Nat.eqb_spec from 0) as [->|Hz]; [auto|].
  destruct (Nat.ltb_spec from (length (r_stops r))) as [Hl|Hl]; cbn [negb]; [|auto].
  split; [lia|]. split; [reflexivity|].
  set (t0 := tt_event_time fd v day from kArr).
  set (loc := fun i => Z.to_nat (s_loc (nth i (r_stops r) (mk_stop 0 false false false false)))).
  set (mk := fun i => mk_off3 (loc i) (tt_event_time fd v day i kArr + tt_transfer_time tt (loc i) - t0) (Z.of_nat i mod 256)).
  assert (AL : forall i, (from <= i < length (r_stops r))%nat ->
    alight tt fd r v day from i (loc i) (tt_event_time fd v day i kArr + tt_transfer_time tt (loc i))).
  { intros i Hi. constructor; [lia| |reflexivity]. exists (nth i (r_stops r) (mk_stop 0 false false false false)).
    split; [|reflexivity]. apply nth_error_nth'. lia. }
  assert (I16 : forall x, -32768 <= x <= 32767 -> to_i16 x = x).
  { intros x Hx. unfold to_i16. rewrite Z.mod_small; lia. }
  assert (E : forall is starts, (forall i, In i is -> (from <= i < length (r_stops r))%nat) ->
    fold_left (fun starts i =>
                 let l := Z.to_nat (s_loc (nth i (r_stops r) (mk_stop 0 false false false false))) in
                 let arrival_with_transfer := tt_event_time fd v day i kArr + tt_transfer_time tt l in
                 starts ++ [mk_off3 l (to_i16 (arrival_with_transfer - t0)) (to_u8 (Z.of_nat i))]) is starts = starts ++ map mk is).
  { induction is as [|i is IH]; intros ss Hi; [cbn; now rewrite app_nil_r|].
    cbn [fold_left map]. cbv zeta. rewrite IH by (intros; apply Hi; now right). rewrite <- app_assoc. cbn [app]. do 2 f_equal.
    unfold mk. f_equal. fold (loc i). apply I16. apply (HS i (loc i)). apply AL, Hi. now left. }
  exists (map mk (seq from (length (r_stops r) - from))). rewrite E by (intros i Hi; apply in_seq in Hi; lia).
  split; [reflexivity|]. split; [now rewrite map_length, seq_length|]. split.
  - intros o. rewrite in_map_iff. split.
    + intros (i & <- & Hi). apply in_seq in Hi. exists i, (loc i), (tt_event_time fd v day i kArr + tt_transfer_time tt (loc i)).
      split; [apply AL; lia|reflexivity].
    + intros (i & l & t & [A1 (s & A2 & ->) ->] & ->). exists i.
      assert (Hi : (i < length (r_stops r))%nat) by (apply nth_error_Some; congruence).
      split; [|apply in_seq; lia]. unfold mk, loc. rewrite (nth_error_nth _ _ _ A2). reflexivity.
  - intros k o Hk. rewrite nth_error_map in Hk. destruct (nth_error (seq from (length (r_stops r) - from)) k) as [i|] eqn:Ei; [|discriminate].
    cbn in Hk. injection Hk as <-.
    assert (Hlt : (k < length (r_stops r) - from)%nat).
    { assert (H : nth_error (seq from (length (r_stops r) - from)) k <> None) by congruence. apply nth_error_Some in H. now rewrite seq_length in H. }
    assert (i = (from + k)%nat).
    { apply (nth_error_nth _ _ O) in Ei. rewrite seq_nth in Ei by exact Hlt. auto. }
    subst i. exists (loc (from + k)%nat), (tt_event_time fd v day (from + k)%nat kArr + tt_transfer_time tt (loc (from + k)%nat)).
    split; [apply AL; lia|]. unfold mk. cbn [of_duration of_target]. split; [lia|reflexivity].
Qed.

(** Example: a four-stop train over midnight, boarded before its second stop; at stop 2 alighting is not allowed. *)
Module ExampleOnTrip.
  Definition tt : timetable := mk_tt 5 [] (fun _ => []) (fun l => 2 + Z.of_nat l) (fun _ => []) (fun _ => []) (fun _ _ => false).
  Definition stops : list stop := [mk_stop 0 true false true false; mk_stop 1 true true true true; mk_stop 2 true false true false; mk_stop 3 false true false true].
  Definition v : vehicle := mk_vehicle (fun s e => match s with 0%nat => delta_make 0 1400 | 1%nat => delta_make 0 1410 | 2%nat => delta_make 1 5 | _ => delta_make 1 65 end) (fun _ => true).
  Definition r : route := mk_route stops 0 (fun _ => false) (fun _ => false) (fun _ _ => false) [v] None.
  Lemma short : short_trip tt 20000 r v 7 1.
  Proof.
    intros i l t [H1 (s & H2 & ->) ->].
    do 4 (destruct i as [|i]; [cbn in H2; injection H2 as <-; vm_compute; split; discriminate|]). now destruct i.
  Qed.
  Example C55_nonvacuous : short_trip tt 20000 r v 7 1 /\
    generate_ontrip_train_query tt 20000 r v 7 1 [mk_off3 4 9 0] =
      Some ([mk_off3 4 9 0; mk_off3 1 3 1; mk_off3 2 39 2; mk_off3 3 100 3], 20007 * 1440 + 1410) /\
    generate_ontrip_train_query tt 20000 r v 7 0 [] = None /\ generate_ontrip_train_query tt 20000 r v 7 4 [] = None.
  Proof. split; [exact short|]. repeat split; vm_compute; reflexivity. Qed.
End ExampleOnTrip.

(** Stops at which passengers must not alight are used as starts nevertheless. *)
Theorem C55_exit_permission_refuted :
  ~ (forall tt first_day r v day from starts starts' t0 o i s,
       generate_ontrip_train_query tt first_day r v day from [] = Some (starts ++ o :: starts', t0) ->
       i = (from + length starts)%nat -> nth_error (r_stops r) i = Some s -> s_out s = true).
Proof.
  intros H. specialize (H ExampleOnTrip.tt 20000 ExampleOnTrip.r ExampleOnTrip.v 7 1%nat [mk_off3 1 3 1] [mk_off3 3 100 3]
    (20007 * 1440 + 1410) (mk_off3 2 39 2) 2%nat (mk_stop 2 true false true false)).
  discriminate H; vm_compute; reflexivity.
Qed.
Print Assumptions C55_starts_are_the_possible_exits.
