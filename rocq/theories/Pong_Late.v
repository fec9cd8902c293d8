(** Queries with an offset table: the label of the virtual end is written only if it is within the destination bound
    (raptor.h:847-881), so no reported journey ends later than the worst admissible time. *)
From Coq Require Import List ZArith Bool Arith Lia.
From Verif Require Import Base Time_Model Raptor_Model Raptor_Spec Raptor_Base Raptor_Sound Raptor_Opt Raptor_Bound.
Import ListNotations.
Local Open Scope Z_scope.

Section Late.
  Variable P : params.
  Notation o := (o P).
  Notation OL := (OL P).
  Notation OI := (OI P).
  Notation kInvalid := (kInvalid P).
  Hypothesis Hwf : all_vehicles_wf P.
  Hypothesis Hdur : durations_ok P.
  Hypothesis Hend : end_ok P.
  Hypothesis Hloc : locations_ok P.
  Hypothesis Him : p_dist_to_end P <> None.
  Variables W B : Z.
  Hypothesis HW : OL <= W.
  Hypothesis HB : 0 <= B.
  Hypothesis Htr : forall l, 0 <= transfer_time P l <= B.
  Hypothesis Hfp : forall l l' d, walk P l l' d -> 0 <= d <= B.
  Variable St : nat -> Z -> Prop.
  Hypothesis HSt : forall l t, St l t -> OL < o t.
  Notation bounded := (bounded P W B).
  Notation sinv := (sinv P St).

  Definition endb (s : state) : Prop := forall k, (1 <= k)%nat -> s_rt s k (p_end P) <> kInvalid -> o (s_rt s k (p_end P)) <= W.

  Lemma transfer_to_endb k target t b s : target <> p_end P -> endb s ->
    endb (transfer_to P k target t b s) /\ s_tmp (transfer_to P k target t b s) = s_tmp s.
  Proof.
    intros Hne H. assert (F := transfer_to_frame P k target t b s). cbv zeta in F. destruct F as (F1 & F2 & F3 & _).
    split; [|exact F1]. intros j Hj. rewrite F3; auto.
  Qed.
  Lemma update_transfers_endb k s : s_tmp s (p_end P) = kInvalid -> endb s ->
    endb (update_transfers P k s) /\ s_tmp (update_transfers P k s) = s_tmp s.
  Proof.
    intros Ht H. unfold update_transfers.
    refine (fold_left_inv _ (fun s' => endb s' /\ s_tmp s' = s_tmp s) _ _ (conj H eq_refl) _). intros s' i _ [H1 H2].
    destruct (s_prev s' i && negb (s_tmp s' i =? kInvalid)) eqn:E; [|auto].
    apply andb_true_iff in E as [_ E]. apply negb_true_iff, Z.eqb_neq in E. cbv zeta.
    destruct (transfer_to_endb k i (clamp16 (s_tmp s' i + (if negb (is_intermodal_dest P) && p_is_dest P i then 0
       else dir P (p_adjust P (tt_transfer_time (p_tt P) i))))) (p_is_dest P i) s') as [T1 T2]; auto.
    - intros ->. rewrite H2 in E. congruence.
    - split; auto. congruence.
  Qed.
  Lemma update_footpaths_endb k s : endb s -> endb (update_footpaths P k s).
  Proof.
    intros H. unfold update_footpaths. apply fold_left_inv; auto. intros s' i _ H'. destruct (s_prev s' i); auto.
    apply fold_left_inv; auto. intros s2 [l' d0] Hin H2. cbn [fst snd]. destruct (s_tmp s2 i =? kInvalid); auto.
    apply transfer_to_endb; auto. intros ->. destruct (Hend Him) as (_ & _ & X). apply (X i d0). exact Hin.
  Qed.
  Lemma update_intermodal_endb k s : bounded s -> endb s -> endb (update_intermodal_footpaths P k s).
  Proof.
    intros Hb H. unfold update_intermodal_footpaths. destruct (p_dist_to_end P) as [off|]; auto.
    refine (proj2 (fold_left_inv _ (fun s => (forall i, o (s_tad s i) <= W) /\ endb s) _ _ (conj (b_tad _ _ _ _ Hb) H) _)).
    clear s Hb H. intros s i _ [Ht H].
    destruct (s_prev s i); auto. destruct (off i) as [d|]; auto.
    destruct (s_tmp s i =? kInvalid); auto. set (t := clamp16 _).
    destruct (is_better_or_eq P t (s_tad s k)) eqn:E; auto. apply is_better_or_eq_o in E.
    assert (X := Ht k). split; cbn [s_tad].
    - intros j. unfold update_time_at_dest. destruct (Nat.leb k j); [|auto]. rewrite o_get_best. specialize (Ht j). lia.
    - intros k' Hk'. cbn [s_rt]. unfold upd at 1 3. destruct (Nat.eqb_spec k k') as [<-|]; [|apply H; auto]. unfold upd.
      rewrite Nat.eqb_refl. lia.
  Qed.
  Lemma round_endb k s : (1 <= k)%nat -> sinv k s -> bounded s -> endb s -> endb (fst (round P k s)).
  Proof.
    intros Hk Hs Hb H. unfold round. cbv zeta.
    assert (Hb1 : bounded (merge_best P k s)) by (apply merge_best_bounded; auto).
    assert (Hs1 : sinv k (merge_best P k s)) by (apply merge_best_sinv; auto).
    set (s1 := merge_best P k s) in *.
    assert (H1 : endb s1) by exact H.
    destruct (negb (any_marked P s1)); [exact H1|]. cbn [fst].
    set (s2 := mk_state (s_tmp s1) (s_best s1) (s_rt s1) (s_tad s1) (fun _ => false) (s_mark s1)).
    assert (Hs3 : sinv k (loop_routes P k (route_marks P s1) s2)).
    { apply loop_routes_sinv; auto. apply marks_sinv. exact Hs1. }
    assert (Hb3 : bounded (loop_routes P k (route_marks P s1) s2)) by (apply loop_routes_bounded; auto; apply marks_bounded; auto).
    assert (H3 : endb (loop_routes P k (route_marks P s1) s2)).
    { destruct (route_fold_frame P k (route_marks P s1) (seq 0 (length (tt_routes (p_tt P)))) s2) as (F1 & _).
      intros j Hj. change (loop_routes P k (route_marks P s1) s2) with (fold_left (route_step P k (route_marks P s1)) (seq 0 (length (tt_routes (p_tt P)))) s2).
      rewrite F1. apply H1. exact Hj. }
    set (s3 := loop_routes P k (route_marks P s1) s2) in *. clearbody s3.
    set (s4 := mk_state (s_tmp s3) (s_best s3) (s_rt s3) (s_tad s3) (fun _ => false) (s_mark s3)).
    assert (Ht4 : s_tmp s4 (p_end P) = kInvalid).
    { cbn [s4 s_tmp]. destruct (Z.eq_dec (s_tmp s3 (p_end P)) kInvalid) as [E|E]; auto. exfalso.
      destruct (si_tmp _ _ _ _ Hs3 _ E) as (i & _ & Ha).
      inversion Ha as [k0 l0 t0 tb l' ta _ _ Hride]; subst.
      destruct Hride as [ri r vi v day s5 s6 st st' Hr Hv _ _ Hs' _ _ E' _ _ _ _ _ _].
      apply nth_error_In in Hs'. destruct (Hend Him) as (_ & X & _). eapply X; eauto. }
    assert (Hb4 : bounded s4) by (apply marks_bounded; exact Hb3).
    destruct (update_transfers_endb k s4 Ht4 H3) as [H5 _].
    apply update_footpaths_endb, update_intermodal_endb; auto. apply update_transfers_bounded; auto.
  Qed.
  Lemma rounds_endb n : forall k s, (1 <= k)%nat -> sinv k s -> bounded s -> endb s -> endb (rounds P n k s).
  Proof.
    induction n as [|n IH]; intros k s Hk Hs Hb H; cbn [rounds]; auto.
    assert (R1 := round_endb k s Hk Hs Hb H). assert (R2 : bounded (fst (round P k s))) by (apply round_bounded; auto).
    assert (R3 : sinv k (fst (round P k s))) by (apply round_sinv; auto).
    destruct (round P k s) as [s' go]. cbn [fst] in *. destruct go; auto. apply IH; auto.
    apply sinv_weaken with k; auto.
  Qed.
  Lemma run_group_endb mt g : o (g_worst g) <= W ->
    (forall l t, In (l, t) (g_starts g) -> St l t /\ o t <= OI) ->
    endb (run_group P mt (reset_arrivals P) g).
  Proof.
    intros Hg Hst. unfold run_group.
    assert (X : forall xs s, s_tmp s = (fun _ => kInvalid) -> (forall k l, (1 <= k)%nat -> s_rt s k l = kInvalid) ->
      (forall l t, In (l, t) xs -> St l t /\ o t <= OI) -> sinv 1 s ->
      let s' := fold_left (add_start P) xs s in
      s_tmp s' = (fun _ => kInvalid) /\ (forall k l, (1 <= k)%nat -> s_rt s' k l = kInvalid) /\ sinv 1 s').
    { cbv zeta. induction xs as [|[l' t'] xs IH]; intros s E L Hin Hs; cbn [fold_left]; auto. apply IH; [exact E| |intros; apply Hin; now right|].
      - intros k' l'' Hk'. cbn [add_start s_rt]. unfold upd at 1. destruct (Nat.eqb_spec 0 k'); [lia|]. apply L; auto.
      - destruct (Hin l' t' (or_introl eq_refl)). apply add_start_sinv; auto. }
    assert (S0 : sinv 1 (next_start_time P (reset_arrivals P))).
    { unfold next_start_time, reset_arrivals. split; cbn [s_rt s_tmp s_best]; intros; rewrite ?o_kInvalid; try lia; congruence. }
    assert (N := X (g_starts g) (next_start_time P (reset_arrivals P)) eq_refl (fun _ _ _ => eq_refl) Hst S0). cbv zeta in N.
    destruct N as (X1 & X2 & X3).
    set (s' := fold_left _ _ _) in *. clearbody s'. apply rounds_endb; auto.
    - destruct X3 as [A1 A2 A3 A4 A5]. split; cbn [set_worst s_rt s_tmp s_best]; auto.
    - constructor; cbn [set_worst s_tmp s_tad s_rt].
      + rewrite X1. intros l' Hl'. now contradiction Hl'.
      + intros i. rewrite o_get_best. lia.
      + intros k l Hk Hne. exfalso. apply Hne. auto.
    - intros k Hk Hne. exfalso. apply Hne. cbn [set_worst s_rt]. auto.
  Qed.
End Late.
