(** The trip based search reports only feasible journeys. *)
From Coq Require Import List ZArith Bool Arith Lia.
From Verif Require Import Base Time_Model Time_Proofs Pareto_Model Pareto_Proofs Calendar_Model Finish_Model Raptor_Model Raptor_Spec Raptor_Final.
From Verif Require Import Tb_Model Tbp_Model Tbp_Proofs Tbq_Model P_Tbp P_Raptor.
Import ListNotations.
Local Open Scope Z_scope.

Lemma fold_cons {A B} (f : A -> B -> A) (b : B) (l : list B) (a : A) : fold_left f (b :: l) a = fold_left f l (f a b).
Proof. reflexivity. Qed.
(** All journeys reported by a sequence of groups, for an arbitrary step [F] and report function [rep]. *)
Section AllRep.
  Context {S G J : Type} (F : S -> G -> S) (rep : G -> S -> list J).
  Fixpoint all_rep (s : S) (gs : list G) : list J :=
    match gs with [] => [] | g :: gs' => rep g (F s g) ++ all_rep (F s g) gs' end.
  Lemma all_rep_cons s g gs : all_rep s (g :: gs) = rep g (F s g) ++ all_rep (F s g) gs.
  Proof. reflexivity. Qed.
  Lemma in_all_rep gs : forall s j, In j (all_rep s gs) <->
    exists gs1 g gs2, gs = gs1 ++ g :: gs2 /\ In j (rep g (fold_left F (gs1 ++ [g]) s)).
  Proof.
    induction gs as [|g gs IH]; intros s j; cbn [all_rep].
    - split; [intros []|]. intros (gs1 & g & gs2 & E & _). destruct gs1; discriminate.
    - rewrite in_app_iff, IH. split.
      + intros [H|(gs1 & g' & gs2 & -> & H)]; [exists [], g, gs; auto|exists (g :: gs1), g', gs2; auto].
      + intros (gs1 & g' & gs2 & E & H). destruct gs1 as [|g1 gs1]; cbn in E; injection E as -> ->; [left; exact H|right; exists gs1, g', gs2; auto].
  Qed.
End AllRep.
Definition tb_rep (g : group) (s : qstate) : list journey := tb_reported (g_start g) s.

Lemma fold_inv {A B} (I : A -> Prop) (f : A -> B -> A) : forall l s, I s -> (forall s b, In b l -> I s -> I (f s b)) -> I (fold_left f l s).
Proof. induction l as [|b l IH]; intros s Hs Hf; cbn; auto. apply IH; [apply Hf; [now left|auto]|]. intros; apply Hf; [now right|auto]. Qed.
Lemma query_le (s : reached) n r o d k : (1 <= n r)%nat -> reached_query s n r o d k <= Z.of_nat (n r) - 1.
Proof.
  intros H. unfold reached_query. set (b := Z.of_nat (n r) - 1). assert (Hb : b mod 65536 <= b) by (apply Z.mod_le; subst b; lia).
  apply (fold_inv (fun m => m <= b)); [exact Hb|]. intros m e _ Hm.
  destruct (_ && (te_segment e <? m)) eqn:E; [|exact Hm]. apply andb_true_iff in E as [_ E]. apply Z.ltb_lt in E. lia.
Qed.
Section Sound.
  Variable P : params.
  Notation tt := (p_tt P).
  Variable fps0 : nat -> list (nat * Z).
  Hypothesis Hfwd : p_fwd P = true.
  Hypothesis Hwf : all_vehicles_wf P.
  Hypothesis Hcol : columns_sorted P.
  Hypothesis Htr : forall l, 0 <= tt_transfer_time tt l <= 511.
  Hypothesis Hfp : forall l l' d, In (l', d) (tt_footpaths_out tt l) -> 0 <= d <= 511.
  Hypothesis Hin : forall l l' d, In (l', d) (tt_footpaths_in tt l) -> In (l, d) (tt_footpaths_out tt l').
  Hypothesis Hend : end_ok P.
  Hypothesis Hadj : forall d, p_adjust P d = d.
  Hypothesis Hclasz : forall c, p_allowed_clasz P c = true.
  Hypothesis Hreq : forall f, p_require P f = false.

  Lemma ev_time r v day i e : (r < length (tt_routes tt))%nat -> (v < length (r_vehicles (route_at tt r)))%nat -> (i < n_stops tt r)%nat ->
    tb_event_time P r v day i e = event_time P (vehicle_at tt r v) day i e.
  Proof.
    intros Hr Hv Hi. destruct (veh_wf P Hwf r v Hr Hv) as (W & _). specialize (W i e Hi) as (W1 & W2 & W3). unfold event_minutes in W3.
    unfold tb_event_time, event_time, mam_of, delta_count, to_i16. rewrite Z.mod_small; lia.
  Qed.
  Lemma after_f t d : after P t d = t + d. Proof. unfold after. now rewrite Hfwd. Qed.
  Lemma nl_f a b : no_later P a b <-> a <= b. Proof. unfold no_later. now rewrite Hfwd. Qed.
  Lemma runs_active r v d : days_of_vehicle tt r v d = true -> runs_on (vehicle_at tt r v) d.
  Proof. unfold days_of_vehicle, is_transport_active, runs_on. rewrite !andb_true_iff, Z.leb_le, Z.ltb_lt. unfold kMaxDays. tauto. Qed.

  Section Starts.
    Variable St : nat -> Z -> Prop.
    Notation ready := (ready P St (transfer_time P)).
    Notation arrived := (arrived P St (transfer_time P)).
    Notation connection := (connection P St (transfer_time P)).

    (** ** Queue entries: the traveller can be on the vehicle. *)
    Record boarded (k : nat) (e : qentry) : Prop := mk_boarded {
      bo_route : (q_route e < length (tt_routes tt))%nat;
      bo_vehicle : (q_vehicle e < length (r_vehicles (route_at tt (q_route e))))%nat;
      bo_to : (q_to e <= n_stops tt (q_route e) - 1)%nat;
      bo_from : (q_from e < n_stops tt (q_route e) - 1)%nat;
      bo_in : s_in (stop_at (route_at tt (q_route e)) (q_from e)) = true;
      bo_runs : runs_on (vehicle_at tt (q_route e) (q_vehicle e)) (base_ P + q_day e);
      bo_ready : exists t, ready k (loc_at (route_at tt (q_route e)) (q_from e)) t /\
                  t <= event_time P (vehicle_at tt (q_route e) (q_vehicle e)) (base_ P + q_day e) (q_from e) kDep }.

    (** Leaving the vehicle. *)
    Lemma boarded_arrived k e i : boarded k e -> (q_from e < i < n_stops tt (q_route e))%nat -> s_out (stop_at (route_at tt (q_route e)) i) = true ->
      arrived (S k) (loc_at (route_at tt (q_route e)) i) (event_time P (vehicle_at tt (q_route e) (q_vehicle e)) (base_ P + q_day e) i kArr).
    Proof.
      intros [B1 B2 B3 B4 B5 B6 (t & B7 & B8)] Hi Ho.
      eapply arrived_ride; [exact B7|apply nl_f; exact B8|].
      apply (ride_intro P _ _ _ _ (q_route e) (route_at tt (q_route e)) (q_vehicle e) (vehicle_at tt (q_route e) (q_vehicle e)) (base_ P + q_day e) (q_from e) i
             (stop_at (route_at tt (q_route e)) (q_from e)) (stop_at (route_at tt (q_route e)) i)); auto.
      - now apply route_at_nth.
      - now apply vehicle_at_nth.
      - apply stop_at_nth. unfold n_stops in *. lia.
      - apply stop_at_nth. unfold n_stops in *. lia.
      - rewrite Hfwd. lia.
      - unfold get_on_allowed, wheelchair. rewrite Hfwd, Hreq. exact B5.
      - unfold get_off_allowed, wheelchair. rewrite Hfwd, Hreq. exact Ho.
      - intros f sec _ E. now rewrite Hreq in E.
      - now rewrite Hfwd.
      - now rewrite Hfwd.
    Qed.

    Definition genuine (n : nat) (t : Z) : Prop := exists l k, (1 <= k <= S n)%nat /\ connection k l t.
    Definition tm_ok (s : qstate) : Prop := forall n, qs_parent s n = None \/ genuine n (qs_tmin s n).
    (** The table of the last segments leads to destinations. *)
    Definition dist_ok (s : qstate) : Prop := forall r seg d, qs_dist s r seg = Some d ->
      s_out (stop_at (route_at tt r) (S seg)) = true /\ In (loc_at (route_at tt r) (S seg), d) (dest_offsets P).

    Lemma offsets_connect k l t d : arrived k l t -> In (l, d) (dest_offsets P) -> exists l', connection k l' (t + d).
    Proof.
      unfold dest_offsets. intros Ha H. destruct (p_dist_to_end P) as [off|] eqn:E; apply in_flat_map in H as (l0 & _ & H).
      - destruct (off l0) as [d0|] eqn:Eo; [|destruct H]. destruct H as [H|[]]. injection H as -> ->.
        destruct (Hend ltac:(congruence)) as (E1 & _ & _). exists (p_end P).
        eapply (conn_offset P St (transfer_time P) k (p_end P) (t + d) off l t d); auto; [now apply E1|now rewrite after_f].
      - destruct (p_is_dest P l0) eqn:Ed; [|destruct H]. destruct H as [H|H].
        + injection H as -> <-. exists l. rewrite Z.add_0_r. now apply conn_station.
        + exists l0. eapply (conn_walk P St (transfer_time P) k l0 (t + d) l t d); auto; [|now rewrite after_f].
          exists d. rewrite Hfwd, Hadj. split; [apply Hin; exact H|reflexivity].
    Qed.

    (** ** One entry reaches the destination *)
    Lemma improve_ok s k q t : tm_ok s -> (forall n, (k <= n)%nat -> genuine n t) -> tm_ok (improve s k q t).
    Proof.
      intros Hs Hg n. unfold improve. cbn [qs_parent qs_tmin].
      destruct (Nat.leb k n) eqn:E1; cbn [andb]; [|apply Hs]. destruct (Nat.ltb n 15) eqn:E2; cbn [andb]; [|apply Hs].
      destruct (t <? qs_tmin s n) eqn:E3; cbn [andb]; [|apply Hs]. right. apply Hg. now apply Nat.leb_le.
    Qed.
    Record sinv (s : qstate) : Prop := mk_sinv { si_tm : tm_ok s; si_dist : dist_ok s }.
    Lemma seg_dest_ok k s q : sinv s -> (forall e, nth_error (qs_queue s) q = Some e -> boarded k e) ->
      sinv (seg_dest P k s q) /\ qs_queue (seg_dest P k s q) = qs_queue s.
    Proof.
      intros Hs Hb. unfold seg_dest. destruct (nth_error (qs_queue s) q) as [e|] eqn:E; [|auto]. specialize (Hb e eq_refl).
      apply (fold_inv (fun s' => sinv s' /\ qs_queue s' = qs_queue s)); [auto|]. intros s' seg Hseg [[H1 H2] H3]. apply in_seq in Hseg.
      destruct (qs_end s' (q_route e) seg); cbn [negb]; [|split; [constructor|]; auto].
      destruct (qs_dist s' (q_route e) seg) as [d|] eqn:Ed; [|split; [constructor|]; auto].
      split; [constructor; [|exact H2]|exact H3]. destruct (H2 _ _ _ Ed) as [Ho Hd].
      apply improve_ok; [exact H1|]. intros n Hn. pose proof (bo_to k e Hb) as Hto. pose proof (bo_from k e Hb) as Hfr.
      rewrite ev_time; [|apply Hb|apply Hb|lia].
      destruct (offsets_connect _ _ _ _ (boarded_arrived k e (S seg) Hb ltac:(lia) Ho) Hd) as (l & Hc). exists l, (S k). split; [lia|exact Hc].
    Qed.
    (** ** Pruning *)
    Lemma set_nth_length {A} (l : list A) i x : length (set_nth l i x) = length l.
    Proof. revert i. induction l as [|y l IH]; intros [|i]; cbn; auto. Qed.
    Lemma nth_set_nth {A} (l : list A) i x j y : nth_error (set_nth l i x) j = Some y -> (j = i /\ y = x /\ (i < length l)%nat) \/ (j <> i /\ nth_error l j = Some y).
    Proof.
      revert i j. induction l as [|z l IH]; intros [|i] [|j]; cbn; intros H; try discriminate; auto.
      - injection H as <-. left. repeat split; lia.
      - destruct (IH i j H) as [(-> & -> & L)|[N H']]; [left|right]; repeat split; auto; lia.
    Qed.
    Lemma seg_prune_ok k s q lo hi : sinv s -> (forall i e, (lo <= i < hi)%nat -> nth_error (qs_queue s) i = Some e -> boarded k e) -> (lo <= q < hi)%nat ->
      sinv (seg_prune P k s q) /\ length (qs_queue (seg_prune P k s q)) = length (qs_queue s) /\
      (forall i e, (lo <= i < hi)%nat -> nth_error (qs_queue (seg_prune P k s q)) i = Some e -> boarded k e).
    Proof.
      intros [H1 H2] Hq Hr. unfold seg_prune. destruct (nth_error (qs_queue s) q) as [e|] eqn:E; [|auto using mk_sinv].
      cbv zeta. destruct (_ <? _); [|auto using mk_sinv]. cbn [qs_queue]. split; [constructor; assumption|]. split; [apply set_nth_length|].
      intros i e' Hi He. apply nth_set_nth in He as [(-> & -> & _)|[_ He]]; [|eauto].
      destruct (Hq q e Hr E) as [B1 B2 B3 B4 B5 B6 B7]. constructor; cbn; auto. lia.
    Qed.
    (** ** New entries *)
    Lemma enqueue_ok k s q e x seg : boarded k e -> (q_from e <= seg < q_to e)%nat ->
      In x (transfers_of tt fps0 (q_route e) (q_vehicle e) (S seg)) -> x_bf x (base_ P + q_day e) = true ->
      sinv s -> sinv (enqueue P s x q (q_day e) (S k)) /\
      (qs_queue (enqueue P s x q (q_day e) (S k)) = qs_queue s \/
       exists e', qs_queue (enqueue P s x q (q_day e) (S k)) = qs_queue s ++ [e'] /\ boarded (S k) e').
    Proof.
      intros Hb Hseg Hx Hd [H1 H2]. unfold enqueue.
      destruct ((q_day e + x_day x <=? 0) || (kTBMaxDayOffset <=? q_day e + x_day x)); [auto using mk_sinv|].
      cbv zeta. match goal with |- context [reached_query ?a ?b ?c ?d0 ?f ?g] => set (ms := reached_query a b c d0 f g) end.
      destruct (Z.leb_spec ms (Z.of_nat (x_stop x))) as [L|L]; [auto using mk_sinv|].
      split; [constructor; assumption|]. right. eexists. split; [reflexivity|].
      destruct (C46_transfers_are_feasible P fps0 Hfwd Hwf Hcol Htr Hfp _ _ _ _ _ _
        (route_at_nth tt _ (bo_route k e Hb)) (vehicle_at_nth tt _ _ (bo_vehicle k e Hb)) Hx) as (ru & u & len & Hru & Hu & _ & Hday).
      destruct (Hday _ Hd) as ([C1 C2 (st & su & Cs1 & Cs2 & Co & Ci & Cw) [C3 C4] C5] & _).
      assert (Eru : route_at tt (x_route x) = ru) by (unfold route_at; now apply nth_error_nth).
      assert (Eu : vehicle_at tt (x_route x) (x_vehicle x) = u) by (unfold vehicle_at, vehicle_of; rewrite Eru; now apply nth_error_nth).
      assert (Est : stop_at (route_at tt (q_route e)) (S seg) = st) by (unfold stop_at; now apply nth_error_nth).
      assert (Esu : stop_at ru (x_stop x) = su) by (unfold stop_at; now apply nth_error_nth).
      assert (Lst : (S seg < n_stops tt (q_route e))%nat) by (unfold n_stops; apply nth_error_Some; congruence).
      assert (Hms : ms <= Z.of_nat (length (r_stops ru)) - 1).
      { unfold ms. replace (length (r_stops ru)) with (n_stops tt (x_route x)) by (unfold n_stops; now rewrite Eru). apply query_le. unfold n_stops. rewrite Eru. lia. }
      constructor; cbn [q_route q_vehicle q_from q_to q_day].
      - apply nth_error_Some. congruence.
      - rewrite Eru. apply nth_error_Some. congruence.
      - unfold n_stops. rewrite Eru. lia.
      - unfold n_stops. rewrite Eru. lia.
      - rewrite Eru, Esu. exact Ci.
      - rewrite Eu. rewrite Z.add_assoc. exact C2.
      - rewrite Eru, Eu. exists (event_time P (vehicle_at tt (q_route e) (q_vehicle e)) (base_ P + q_day e) (S seg) kArr + len).
        rewrite Z.add_assoc. split; [|exact C5].
        assert (Ha := boarded_arrived k e (S seg) Hb ltac:(lia) ltac:(now rewrite Est)).
        unfold loc_at in Ha |- *. rewrite Est in Ha. rewrite Esu. rewrite <- after_f. destruct Cw as [[El ->]|Cw].
        + rewrite El. rewrite <- (Hadj (tt_transfer_time tt _)). now apply ready_transfer.
        + eapply ready_walk; [exact Ha|]. exists len. rewrite Hfwd, Hadj. auto.
    Qed.
    (** All entries up to [n0] keep their place; the later ones are boarded. *)
    Definition grown (k : nat) (s0 s : qstate) : Prop :=
      exists es, qs_queue s = qs_queue s0 ++ es /\ Forall (boarded k) es.
    Lemma grown_refl k s : grown k s s. Proof. exists []. rewrite app_nil_r. auto. Qed.
    Lemma grown_trans k s s' s'' : grown k s s' -> grown k s' s'' -> grown k s s''.
    Proof. intros (a & E1 & F1) (b & E2 & F2). exists (a ++ b). rewrite E2, E1, app_assoc. split; [reflexivity|]. now apply Forall_app. Qed.
    Lemma grown_app k s s' : qs_queue s' = qs_queue s \/ (exists e', qs_queue s' = qs_queue s ++ [e'] /\ boarded k e') -> grown k s s'.
    Proof. intros [H|(e' & H & B)]; [exists []; rewrite app_nil_r; auto|exists [e']; auto]. Qed.
    Lemma seg_transfers_ok k s q : sinv s -> (forall e, nth_error (qs_queue s) q = Some e -> boarded k e) ->
      sinv (seg_transfers P fps0 k s q) /\ grown (S k) s (seg_transfers P fps0 k s q).
    Proof.
      intros Hs Hb. unfold seg_transfers. destruct (nth_error (qs_queue s) q) as [e|] eqn:E; [|split; [auto|apply grown_refl]]. specialize (Hb e eq_refl).
      apply (fold_inv (fun s' => sinv s' /\ grown (S k) s s')); [split; [auto|apply grown_refl]|]. intros s1 seg Hseg [H1 H2]. apply in_seq in Hseg.
      apply (fold_inv (fun s' => sinv s' /\ grown (S k) s s')); [auto|]. intros s2 x Hx [H3 H4].
      destruct (x_bf x (base_ P + q_day e)) eqn:Ed; [|auto].
      destruct (enqueue_ok k s2 q e x seg Hb ltac:(lia) Hx Ed H3) as [H5 H6]. split; [exact H5|].
      eapply grown_trans; [exact H4|]. now apply grown_app.
    Qed.

    (** ** Rounds *)
    Lemma tb_rounds_ok : forall n k from to s, sinv s -> to = length (qs_queue s) ->
      (forall i e, (from <= i < to)%nat -> nth_error (qs_queue s) i = Some e -> boarded k e) -> sinv (tb_rounds P fps0 n k from to s).
    Proof.
      induction n as [|n IH]; intros k from to s Hs Hto Hq; cbn [tb_rounds]; [exact Hs|].
      destruct (Nat.eqb from to); [exact Hs|]. cbv zeta. set (is := seq from (to - from)).
      assert (His : forall i, In i is -> (from <= i < to)%nat) by (intros i H; apply in_seq in H; lia).
      assert (G1 : sinv (fold_left (seg_dest P k) is s) /\ qs_queue (fold_left (seg_dest P k) is s) = qs_queue s).
      { apply (fold_inv (fun s' => sinv s' /\ qs_queue s' = qs_queue s)); [auto|]. intros s' i Hi [A1 A2].
        destruct (seg_dest_ok k s' i A1) as [B1 B2]; [rewrite A2; intros e He; apply (Hq i); auto|]. split; [exact B1|]. now rewrite B2. }
      set (s1 := fold_left (seg_dest P k) is s) in *. destruct G1 as [G1 G1q].
      assert (G2 : sinv (fold_left (seg_prune P k) is s1) /\ length (qs_queue (fold_left (seg_prune P k) is s1)) = to /\
                   (forall i e, (from <= i < to)%nat -> nth_error (qs_queue (fold_left (seg_prune P k) is s1)) i = Some e -> boarded k e)).
      { apply (fold_inv (fun s' => sinv s' /\ length (qs_queue s') = to /\ (forall i e, (from <= i < to)%nat -> nth_error (qs_queue s') i = Some e -> boarded k e))).
        - rewrite G1q. auto.
        - intros s' i Hi (A1 & A2 & A3). destruct (seg_prune_ok k s' i from to A1 A3 (His i Hi)) as (B1 & B2 & B3). rewrite B2. auto. }
      set (s2 := fold_left (seg_prune P k) is s1) in *. destruct G2 as (G2 & G2l & G2q).
      assert (G3 : sinv (fold_left (seg_transfers P fps0 k) is s2) /\ grown (S k) s2 (fold_left (seg_transfers P fps0 k) is s2)).
      { apply (fold_inv (fun s' => sinv s' /\ grown (S k) s2 s')); [split; [auto|apply grown_refl]|]. intros s' i Hi [A1 A2].
        destruct (seg_transfers_ok k s' i A1) as [B1 B2].
        - destruct A2 as (es & A2 & _). rewrite A2. intros e He. apply (G2q i); [auto|]. rewrite nth_error_app1 in He by (rewrite G2l; apply His; auto). exact He.
        - split; [exact B1|]. eapply grown_trans; eauto. }
      set (s3 := fold_left (seg_transfers P fps0 k) is s2) in *. destruct G3 as [G3 (es & G3q & G3f)].
      apply IH; [exact G3|reflexivity|]. intros i e [Hi1 Hi2] He. rewrite G3q in He. rewrite nth_error_app2 in He by lia.
      apply nth_error_In in He. rewrite Forall_forall in G3f. auto.
    Qed.

    (** ** Starts *)
    Lemma scan_day_ok r i first day mam : (r < length (tt_routes tt))%nat -> (i < n_stops tt r)%nat -> 0 <= mam < 1440 ->
      forall evs v d, incl evs (departures tt r i) -> tb_scan_day P r first day mam evs = Some (v, d) ->
      (v < length (r_vehicles (route_at tt r)))%nat /\ runs_on (vehicle_at tt r v) d /\
      (day - p_base P) * 1440 + (if first then mam else 0) <= event_time P (vehicle_at tt r v) d i kDep.
    Proof.
      intros Hr Hi Hm. induction evs as [|[w ev] evs IH]; intros v d Hinc H; cbn [tb_scan_day] in H; [discriminate|].
      assert (Hin' : incl evs (departures tt r i)) by (intros y Hy; apply Hinc; now right).
      destruct (first && negb (mam <=? d_mam ev)) eqn:E1; [now apply IH|].
      destruct (days_of_vehicle tt r w (day - d_days ev)) eqn:E2; cbn [negb] in H; [|now apply IH]. injection H as <- <-.
      specialize (Hinc (w, ev) ltac:(now left)). unfold departures in Hinc. apply in_map_iff in Hinc as (w' & Ew & Hw). injection Ew as -> <-. apply in_seq in Hw.
      split; [lia|]. split; [now apply runs_active|]. unfold event_time. fold (mam_of tt r w i kDep).
      destruct (veh_wf P Hwf r w Hr ltac:(lia)) as (W & _). specialize (W i kDep Hi) as (W1 & _). fold (mam_of tt r w i kDep) in W1.
      destruct first; cbn [andb] in E1; [apply negb_false_iff, Z.leb_le in E1|]; lia.
    Qed.
    Lemma seek_incl mam evs : incl (seek mam evs) evs.
    Proof. induction evs as [|[u dep] evs IH]; cbn [seek]; [apply incl_refl|]. destruct (_ <? _); [apply incl_tl, IH|apply incl_refl]. Qed.
    Lemma earliest_ok r i day mam v d : (r < length (tt_routes tt))%nat -> (i < n_stops tt r)%nat -> 0 <= mam < 1440 ->
      tb_earliest_transport P r i day mam = Some (v, d) ->
      (v < length (r_vehicles (route_at tt r)))%nat /\ runs_on (vehicle_at tt r v) d /\
      (day - p_base P) * 1440 + mam <= event_time P (vehicle_at tt r v) d i kDep.
    Proof.
      intros Hr Hi Hm. unfold tb_earliest_transport.
      destruct (tb_scan_day P r true day mam (seek mam (departures tt r i))) as [[v0 d0]|] eqn:E.
      - intros H. injection H as -> ->. apply (scan_day_ok r i true day mam Hr Hi Hm _ _ _ (seek_incl _ _)) in E. exact E.
      - intros H. apply (scan_day_ok r i false (day + 1) mam Hr Hi Hm _ _ _ (incl_refl _)) in H as (A & B & C). split; [auto|]. split; [auto|]. lia.
    Qed.
    Lemma add_start_ok s l t : St l t -> 0 <= p_base P * 1440 + t -> sinv s -> sinv (tb_add_start P s (l, t)) /\ grown 0 s (tb_add_start P s (l, t)).
    Proof.
      intros HSt Ht Hs. unfold tb_add_start. set (m := p_base P * 1440 + t) in *. cbv zeta.
      assert (Hm : 0 <= Z.rem m 1440 < 1440) by (apply Z.rem_bound_pos; lia).
      assert (Hq : m = 1440 * Z.quot m 1440 + Z.rem m 1440) by (apply Z.quot_rem'; lia).
      apply (fold_inv (fun s' => sinv s' /\ grown 0 s s')); [split; [auto|apply grown_refl]|]. intros s1 r _ H1.
      apply (fold_inv (fun s' => sinv s' /\ grown 0 s s')); [exact H1|]. intros s2 i Hi [H2 H3]. apply in_seq in Hi.
      destruct (negb (s_in _) || negb (Nat.eqb _ _)) eqn:E1; [auto|]. apply orb_false_iff in E1 as [E1 E2]. apply negb_false_iff in E1, E2. apply Nat.eqb_eq in E2.
      destruct (tb_earliest_transport P r i (Z.quot m 1440) (Z.rem m 1440)) as [[v vday]|] eqn:E3; [|auto].
      destruct (_ || _); [auto|]. unfold initial_enqueue. cbv zeta.
      match goal with |- context [reached_query ?a ?b ?c ?d0 ?f ?g] => set (ms := reached_query a b c d0 f g) end.
      destruct (Z.leb_spec ms (Z.of_nat i)) as [L|L]; [auto|].
      assert (Hr : (r < length (tt_routes tt))%nat) by (apply route_exists; lia).
      destruct (earliest_ok r i _ _ _ _ Hr ltac:(lia) Hm E3) as (V1 & V2 & V3).
      split; [destruct H2; constructor; assumption|]. eapply grown_trans; [exact H3|]. eexists. split; [reflexivity|]. constructor; [|constructor].
      assert (Hms : ms <= Z.of_nat (n_stops tt r) - 1) by (apply query_le; lia).
      constructor; cbn [q_route q_vehicle q_from q_to q_day]; auto; try lia.
      - unfold base_. replace (p_base P - QUERY_DAY_SHIFT + (vday - (p_base P - QUERY_DAY_SHIFT))) with vday by lia. exact V2.
      - exists t. unfold loc_at. rewrite E2. split; [now apply ready_start|].
        unfold base_. replace (p_base P - QUERY_DAY_SHIFT + (vday - (p_base P - QUERY_DAY_SHIFT))) with vday by lia. lia.
    Qed.
    Lemma set_worst_ok s w : sinv s -> sinv (set_worst_time s w).
    Proof.
      intros [H1 H2]. constructor; [|exact H2]. intros n. unfold set_worst_time. cbn [qs_parent qs_tmin].
      destruct (Nat.ltb n 14 && (w <=? qs_tmin s n)); [now left|apply H1].
    Qed.
    Lemma tb_group_ok s g : sinv s -> (forall l t, In (l, t) (g_starts g) -> St l t /\ 0 <= p_base P * 1440 + t) -> sinv (tb_group P fps0 s g).
    Proof.
      intros Hs Hg. unfold tb_group.
      assert (H : sinv (fold_left (tb_add_start P) (g_starts g) (next_start s)) /\ grown 0 (next_start s) (fold_left (tb_add_start P) (g_starts g) (next_start s))).
      { apply (fold_inv (fun s' => sinv s' /\ grown 0 (next_start s) s')).
        - split; [destruct Hs; constructor; assumption|apply grown_refl].
        - intros s' [l t] Hlt [A1 A2]. destruct (Hg l t Hlt) as [B1 B2]. destruct (add_start_ok s' l t B1 B2 A1) as [C1 C2].
          split; [exact C1|eapply grown_trans; eauto]. }
      destruct H as [H1 (es & E & F)]. apply tb_rounds_ok; [now apply set_worst_ok|reflexivity|].
      cbn [set_worst_time qs_queue]. rewrite E. cbn [next_start qs_queue app]. intros i e _ He. apply nth_error_In in He. rewrite Forall_forall in F. auto.
    Qed.
  End Starts.

  (** ** The destination table of a new query *)
  Lemma mark_ok s l d : In (l, d) (dest_offsets P) -> dist_ok s -> dist_ok (mark_dest_segments P s (l, d)).
  Proof.
    intros Hd Hs. unfold mark_dest_segments. apply (fold_inv dist_ok); [exact Hs|]. intros s1 r _ H1.
    apply (fold_inv dist_ok); [exact H1|]. intros s2 i Hi H2. apply in_seq in Hi. cbn [fst snd].
    destruct (_ || _ || _) eqn:E; [exact H2|]. rewrite !orb_false_iff in E. destruct E as [[E1 E2] _]. apply negb_false_iff in E1, E2. apply Nat.eqb_eq in E1.
    intros r' seg d'. cbn [qs_dist]. unfold Tb_Model.upd. destruct (Nat.eqb_spec r' r) as [->|_]; [|apply H2].
    destruct (Nat.eqb_spec seg (i - 1)) as [->|_]; [|apply H2]. intros H. injection H as <-.
    replace (S (i - 1)) with i by lia. split; [exact E2|].
    assert (Hl : In (loc_at (route_at tt r) i, d) (dest_offsets P)) by (unfold loc_at; rewrite E1; exact Hd).
    destruct (qs_dist s2 r (i - 1)%nat) as [d0|] eqn:E0; [|exact Hl].
    destruct (Z.min_spec d0 d) as [[_ ->]|[_ ->]]; [|exact Hl].
    apply H2 in E0 as [_ E0]. replace (S (i - 1)) with i in E0 by lia. exact E0.
  Qed.
  Lemma fold_keeps {A B C} (f : A -> B -> A) (g : A -> C) : (forall s b, g (f s b) = g s) -> forall l s, g (fold_left f l s) = g s.
  Proof. intros H. induction l as [|b l IH]; intros s; cbn; [reflexivity|]. now rewrite IH. Qed.
  Lemma mark_parent s ld : qs_parent (mark_dest_segments P s ld) = qs_parent s.
  Proof.
    unfold mark_dest_segments. apply (fold_keeps _ qs_parent). intros s1 r. apply (fold_keeps _ qs_parent). intros s2 i. cbv zeta. now destruct (_ || _).
  Qed.
  Lemma init_ok St s : (forall r i, qs_dist s r i = None) -> sinv St (init_query P s).
  Proof.
    intros Hd. unfold init_query. constructor.
    - intros n. left. rewrite (fold_keeps _ qs_parent) by apply mark_parent. reflexivity.
    - apply (fold_inv dist_ok); [intros r i d; cbn; now rewrite Hd|]. intros s1 [l d] H. now apply mark_ok.
  Qed.

  (** ** All groups *)
  Definition tb_all_reported (s : qstate) (gs : list group) : list journey := all_rep (tb_group P fps0) tb_rep s gs.
  Lemma tb_groups_cons s res g gs : tb_groups P fps0 s res (g :: gs) = tb_groups P fps0 (tb_group P fps0 s g) (fold_left (fun rs j => fst (add journey journey_dominates rs j)) (tb_reported (g_start g) (tb_group P fps0 s g)) res) gs.
  Proof. reflexivity. Qed.
  Lemma tb_groups_eq gs : forall s res,
    tb_groups P fps0 s res gs = (fold_left (tb_group P fps0) gs s, fold_left (fun rs j => fst (add journey journey_dominates rs j)) (tb_all_reported s gs) res).
  Proof.
    unfold tb_all_reported.
    induction gs as [|g gs IH]; intros s res; [reflexivity|].
    rewrite tb_groups_cons, all_rep_cons, (fold_cons (tb_group P fps0)), IH, fold_left_app. unfold tb_rep. reflexivity.
  Qed.
  Lemma tb_results s gs : snd (tb_query P fps0 s gs) = add_all journey journey_dominates (tb_all_reported (init_query P s) gs).
  Proof. unfold tb_query. rewrite tb_groups_eq. reflexivity. Qed.
  Lemma in_tb_all_reported gs s j : In j (tb_all_reported s gs) <->
    exists gs1 g gs2, gs = gs1 ++ g :: gs2 /\ In j (tb_reported (g_start g) (fold_left (tb_group P fps0) (gs1 ++ [g]) s)).
  Proof. unfold tb_all_reported. rewrite in_all_rep. unfold tb_rep. reflexivity. Qed.
  Lemma in_tb_reported t0 s j : In j (tb_reported t0 s) -> exists n, (n < 14)%nat /\ qs_parent s n <> None /\ j = mk_journey t0 (qs_tmin s n) (Z.of_nat n).
  Proof.
    unfold tb_reported. intros H. apply in_flat_map in H as (n & Hn & H). apply in_seq in Hn. destruct (qs_parent s n) eqn:E; [|destruct H].
    destruct H as [<-|[]]. exists n. rewrite E. repeat split; [lia|discriminate].
  Qed.
  Theorem tb_feasible s gs j : groups_ok P gs -> (forall g l t, In g gs -> In (l, t) (g_starts g) -> 0 <= p_base P * 1440 + t) ->
    (forall r i, qs_dist s r i = None) -> In j (snd (tb_query P fps0 s gs)) ->
    0 <= j_transfers j < 14 /\ exists l k, (1 <= k)%nat /\ Z.of_nat k <= j_transfers j + 1 /\
      connection P (start_options P gs (j_start j)) (transfer_time P) k l (j_dest j).
  Proof.
    intros Hgs Hbase Hd Hj. rewrite tb_results in Hj. apply (add_all_sound _ _ journey_dom_trans) in Hj.
    apply in_tb_all_reported in Hj as (gs1 & g & gs2 & E & Hj). apply in_tb_reported in Hj as (n & Hn & Hp & ->).
    cbn [j_transfers j_start j_dest]. split; [lia|].
    set (St := start_options P gs (g_start g)).
    assert (Hinv : sinv St (fold_left (tb_group P fps0) (gs1 ++ [g]) (init_query P s))).
    { apply (fold_inv (sinv St)); [now apply init_ok|]. intros s' g' Hg' Hs'. apply tb_group_ok; [exact Hs'|].
      intros l t Ht. assert (Hin' : In g' gs) by (rewrite E; apply in_app_iff in Hg' as [?|[<-|[]]]; rewrite in_app_iff; cbn; auto).
      split; [|eapply Hbase; eauto]. split; [exists g'; auto|].
      apply nl_f. assert (H1 := go_starts _ _ Hgs g' l t Hin' Ht). apply nl_f in H1.
      apply in_app_iff in Hg' as [Hg'|[<-|[]]]; [|exact H1].
      assert (H2 := go_order _ _ Hgs _ _ _ _ E Hg'). apply nl_f in H2. lia. }
    destruct (si_tm _ _ Hinv n) as [Hn0|(l & k & Hk & Hc)]; [congruence|]. exists l, k. split; [lia|]. split; [lia|exact Hc].
  Qed.
End Sound.
