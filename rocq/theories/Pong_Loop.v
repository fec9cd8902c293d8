(** The loop of the ping-pong search, for any pair of searches that meet their contract. *)
From Coq Require Import List ZArith Bool Arith Lia.
From Verif Require Import Base Time_Model Time_Proofs Pareto_Model Pareto_Proofs Pong_Model.
Import ListNotations.
Local Open Scope Z_scope.

Notation antichain_r := (antichain presult presult_dominates).

Lemma journey_eq_dec (x y : journey) : {x = y} + {x <> y}.
Proof. decide equality; apply Z.eq_dec. Qed.
Lemma presult_eq_dec (x y : presult) : {x = y} + {x <> y}.
Proof. decide equality; [apply bool_dec|apply journey_eq_dec]. Qed.
Lemma pr_refl x : presult_dominates x x = true.
Proof. apply journey_dom_refl. Qed.
Lemma pr_trans x y z : presult_dominates x y = true -> presult_dominates y z = true -> presult_dominates x z = true.
Proof. apply journey_dom_trans. Qed.

Lemma antichain_in R x y : antichain_r R -> In x R -> In y R -> x <> y -> presult_dominates x y = false.
Proof.
  intros Ha Hx Hy Hne. apply In_nth_error in Hx as (i & Hi). apply In_nth_error in Hy as (j & Hj).
  apply (Ha i j); auto. intros E. subst j. congruence.
Qed.
Lemma antichain_map R : antichain_r R <-> antichain journey journey_dominates (map pr_j R).
Proof.
  unfold antichain. split; intros H i j x y Hi Hj Hne.
  - rewrite nth_error_map in Hi, Hj. destruct (nth_error R i) as [x'|] eqn:Ei; [|discriminate].
    destruct (nth_error R j) as [y'|] eqn:Ej; [|discriminate]. cbn in Hi, Hj. injection Hi as <-. injection Hj as <-.
    exact (H i j x' y' Ei Ej Hne).
  - apply (H i j); auto; rewrite nth_error_map; [rewrite Hi|rewrite Hj]; reflexivity.
Qed.

Lemma add_reports_cons R j js : add_reports R (j :: js) = add_reports (fst (add presult presult_dominates R (mk_presult j false))) js.
Proof. reflexivity. Qed.
Lemma add_reports_antichain js : forall R, antichain_r R -> antichain_r (add_reports R js).
Proof.
  induction js as [|j js IH]; intros R Ha; auto. rewrite add_reports_cons. apply IH. apply (add_preserves_antichain _ _ pr_trans); auto.
Qed.
Lemma add_reports_subset js : forall R x, antichain_r R -> In x (add_reports R js) ->
  In x R \/ exists j, In j js /\ x = mk_presult j false.
Proof.
  induction js as [|j js IH]; intros R x Ha Hx; [left; exact Hx|]. rewrite add_reports_cons in Hx.
  apply IH in Hx as [Hx|(j' & Hj & ->)].
  - apply (add_subset _ _ pr_trans) in Hx as [Hx| ->]; auto. right. exists j. cbn; auto.
  - right. exists j'. cbn; auto.
  - apply (add_preserves_antichain _ _ pr_trans); auto.
Qed.
Lemma add_reports_covers js : forall R y, antichain_r R ->
  ((exists x, In x R /\ presult_dominates x y = true) \/ (exists j, In j js /\ y = mk_presult j false)) ->
  exists x, In x (add_reports R js) /\ presult_dominates x y = true.
Proof.
  induction js as [|j js IH]; intros R y Ha Hy.
  - destruct Hy as [Hy|(j & [] & _)]. exact Hy.
  - rewrite add_reports_cons. apply IH; [now apply (add_preserves_antichain _ _ pr_trans)|].
    destruct Hy as [Hy|(j' & [<-|Hj] & ->)].
    + left. apply (add_covers _ _ pr_refl pr_trans); auto.
    + left. apply (add_covers _ _ pr_refl pr_trans); auto.
    + right. exists j'. auto.
Qed.
Lemma add_reports_keeps js : forall R x, antichain_r R -> In x R ->
  (forall j, In j js -> journey_dominates j (pr_j x) = true -> journey_dominates (pr_j x) j = true) ->
  In x (add_reports R js).
Proof.
  induction js as [|j js IH]; intros R x Ha Hx Hk; auto. rewrite add_reports_cons.
  apply IH; [now apply (add_preserves_antichain _ _ pr_trans)| |intros j' Hj'; apply Hk; now right].
  destruct (snd (add presult presult_dominates R (mk_presult j false))) as [i|p] eqn:Er.
  - rewrite (add_antichain_rejected _ _ pr_trans R _ i); auto.
  - pose proof (add_spec _ presult_dominates R (mk_presult j false)) as N. cbv zeta in N. rewrite Er in N.
    destruct N as (-> & _ & Hn). apply in_app_iff. left. apply filter_In. split; auto.
    apply negb_true_iff. destruct (presult_dominates (mk_presult j false) x) eqn:E; auto.
    apply (Hk j) in E; [|now left]. specialize (Hn x Hx). unfold presult_dominates in Hn. cbn in Hn. congruence.
Qed.

Lemma mark_match_spec j : forall R,
  match mark_match j R with
  | None => forall r, In r R -> matches j r = false
  | Some (x, b, R') => exists R1 r R2, R = R1 ++ r :: R2 /\ matches j r = true /\ x = pr_j r /\ b = pr_rec r /\
                         R' = R1 ++ mk_presult (pr_j r) true :: R2
  end.
Proof.
  induction R as [|r R IH]; cbn [mark_match]; [intros r []|].
  destruct (matches j r) eqn:E.
  - exists [], r, R. auto.
  - destruct (mark_match j R) as [[[x b] R']|].
    + destruct IH as (R1 & r' & R2 & -> & Hm & -> & -> & ->). exists (r :: R1), r', R2. auto.
    + intros r' [<-|Hr]; auto.
Qed.

Section Loop.
  Variable q : pquery.
  Notation fwd := (pq_fwd q).
  Variable A : Type.
  Variable ping : Z -> list journey.
  Variable pong_init : Z -> list journey -> A.
  Variable pong_execute : A -> Z -> journey -> A * list journey.
  Variable reconstruct : A -> journey -> bool.
  Variable timeout : nat -> bool.
  Notation is_better := (is_better q).

  (** Search direction as order. *)
  Definition sgn (x : Z) : Z := if fwd then x else - x.
  Lemma is_better_s a b : is_better a b = true <-> sgn a < sgn b.
  Proof. unfold Pong_Model.is_better, sgn. destruct fwd; rewrite Z.ltb_lt; lia. Qed.
  Lemma is_better_s_false a b : is_better a b = false <-> sgn b <= sgn a.
  Proof. unfold Pong_Model.is_better, sgn. destruct fwd; rewrite Z.ltb_ge; lia. Qed.
  Lemma sgn_inj a b : sgn a = sgn b -> a = b.
  Proof. unfold sgn. destruct fwd; lia. Qed.
  Lemma sgn_one x : sgn (x + one q) = sgn x + 1.
  Proof. unfold sgn, one. destruct fwd; lia. Qed.
  Lemma sgn_worst t : sgn (worst_time_at_dest q t) = sgn t + look_ahead q.
  Proof. unfold sgn, worst_time_at_dest, one. destruct fwd; lia. Qed.
  Lemma dom_pong x y : sgn (j_dest x) < sgn (j_start x) ->
    (journey_dominates x y = true <-> j_transfers x <= j_transfers y /\ sgn (j_start x) <= sgn (j_start y) /\ sgn (j_dest y) <= sgn (j_dest x)).
  Proof.
    unfold journey_dominates, sgn. destruct fwd; intros Ho; destruct (Z.leb_spec (j_start x) (j_dest x)); try lia;
      rewrite !andb_true_iff, !Z.leb_le; lia.
  Qed.
  Lemma dom_ping x y : sgn (j_start x) < sgn (j_dest x) ->
    (journey_dominates x y = true <-> j_transfers x <= j_transfers y /\ sgn (j_start y) <= sgn (j_start x) /\ sgn (j_dest x) <= sgn (j_dest y)).
  Proof.
    unfold journey_dominates, sgn. destruct fwd; intros Ho; destruct (Z.leb_spec (j_start x) (j_dest x)); try lia;
      rewrite !andb_true_iff, !Z.leb_le; lia.
  Qed.

  (** Trips in search direction ([F T K a]: begin at [T], [K] rides, end at [a]) and against it. *)
  Variables F B : Z -> nat -> Z -> Prop.
  Variable mt : nat.
  Variable ok : Z -> Prop.
  Hypothesis F_earlier : forall T T' K a, sgn T' <= sgn T -> F T K a -> F T' K a.
  Hypothesis F_time : forall T K a, F T K a -> (1 <= K)%nat /\ sgn T < sgn a.
  Hypothesis F_B : forall T K a, F T K a -> exists d, sgn T <= sgn d /\ B a K d.
  Hypothesis B_F : forall a K d, B a K d -> exists a', sgn a' <= sgn a /\ F d K a'.
  (** Contract of the ping search. *)
  Hypothesis P_sound : forall T j, ok T -> In j (ping T) ->
    j_start j = T /\ 0 <= j_transfers j <= Z.of_nat mt /\ sgn (j_dest j) <= sgn (worst_time_at_dest q T) /\
    exists K, Z.of_nat K <= j_transfers j + 1 /\ F T K (j_dest j).
  Hypothesis P_complete : forall T K a, ok T -> F T K a -> (K <= S mt)%nat -> sgn a <= sgn (worst_time_at_dest q T) ->
    exists j, In j (ping T) /\ j_transfers j <= Z.of_nat K - 1 /\ sgn (j_dest j) <= sgn a.
  Hypothesis P_antichain : forall T, ok T -> antichain journey journey_dominates (ping T).
  (** Contract of the pong search. *)
  Definition honest (r : journey) : Prop := exists K, Z.of_nat K <= j_transfers r + 1 /\ B (j_start r) K (j_dest r).
  Definition state_before (T : Z) (js js1 : list journey) : A := fold_left (fun a j => fst (pong_execute a T j)) js1 (pong_init T js).
  Definition reports (T : Z) (js1 : list journey) (j : journey) (js2 : list journey) : list journey :=
    snd (pong_execute (state_before T (js1 ++ j :: js2) js1) T j).
  Hypothesis Q_sound : forall T js1 j js2 r, ok T -> sort_pings (ping T) = js1 ++ j :: js2 -> In r (reports T js1 j js2) ->
    j_start r = j_dest j /\ 0 <= j_transfers r <= j_transfers j /\ sgn (j_dest r) < sgn (j_start r) /\
    (honest r \/ exists r', In r' (reports T js1 j js2) /\ j_transfers r' < j_transfers r /\ sgn (j_dest r) <= sgn (j_dest r')).
  Hypothesis Q_complete : forall T js1 j js2 K d, ok T -> sort_pings (ping T) = js1 ++ j :: js2 ->
    B (j_dest j) K d -> Z.of_nat K <= j_transfers j + 1 -> sgn T <= sgn d ->
    exists r, In r (reports T js1 j js2) /\ j_transfers r <= Z.of_nat K - 1 /\ sgn d <= sgn (j_dest r).

  Lemma insert_in x j l : In x (insert_ping j l) <-> x = j \/ In x l.
  Proof.
    induction l as [|y l IH]; cbn [insert_ping].
    - cbn. intuition.
    - destruct (j_transfers y <? j_transfers j); cbn [In]; [intuition|]. rewrite IH. intuition.
  Qed.
  Lemma sort_in x l : In x (sort_pings l) <-> In x l.
  Proof.
    induction l as [|y l IH]; [reflexivity|].
    change (sort_pings (y :: l)) with (insert_ping y (sort_pings l)). rewrite insert_in, IH. cbn [In]. intuition.
  Qed.

  Lemma P_in_antichain T x y : ok T -> In x (ping T) -> In y (ping T) -> x <> y -> journey_dominates x y = false.
  Proof.
    intros HT Hx Hy Hne. apply In_nth_error in Hx as (i & Hi). apply In_nth_error in Hy as (j & Hj).
    apply (P_antichain T HT i j); auto. intros E. subst j. congruence.
  Qed.

  (** A trip at least as good as a ping result is as good. *)
  Lemma ping_tight T j K a : ok T -> In j (ping T) -> F T K a -> Z.of_nat K <= j_transfers j + 1 -> sgn a <= sgn (j_dest j) ->
    Z.of_nat K = j_transfers j + 1 /\ a = j_dest j.
  Proof.
    intros HT Hj HF HK Ha. destruct (P_sound _ _ HT Hj) as (Es & Htr & Hw & _).
    destruct (F_time _ _ _ HF) as [HK1 _].
    destruct (P_complete T K a HT HF ltac:(lia) ltac:(lia)) as (j2 & Hj2 & Ht2 & Hd2).
    destruct (P_sound _ _ HT Hj2) as (Es2 & Htr2 & Hw2 & K2 & HK2 & HF2).
    destruct (F_time _ _ _ HF2) as [_ Ht].
    assert (j2 = j).
    { destruct (journey_eq_dec j2 j) as [E|Hne]; auto.
      assert (X := P_in_antichain T j2 j HT Hj2 Hj Hne).
      assert (Y : journey_dominates j2 j = true); [|congruence].
      apply dom_ping; [rewrite Es2; exact Ht|]. rewrite Es, Es2. lia. }
    subst j2. split; [lia|]. apply sgn_inj. lia.
  Qed.
  Lemma ping_exact T j : ok T -> In j (ping T) -> F T (Z.to_nat (j_transfers j + 1)) (j_dest j).
  Proof.
    intros HT Hj. destruct (P_sound _ _ HT Hj) as (Es & Htr & Hw & K & HK & HF).
    destruct (ping_tight T j K (j_dest j) HT Hj HF HK ltac:(lia)) as [E _]. rewrite <- E, Nat2Z.id. exact HF.
  Qed.

  (** A returned trip (as the pong search sees it: [j_dest] is where it begins) is exact, and no trip is better. *)
  Definition best_trip (r : journey) : Prop :=
    F (j_dest r) (Z.to_nat (j_transfers r + 1)) (j_start r) /\
    forall T K a, sgn (j_dest r) <= sgn T -> Z.of_nat K <= j_transfers r + 1 -> sgn a <= sgn (j_start r) -> F T K a ->
      T = j_dest r /\ Z.of_nat K = j_transfers r + 1 /\ a = j_start r.

  Lemma report_cover T js1 j js2 : ok T -> sort_pings (ping T) = js1 ++ j :: js2 ->
    forall n r, (Z.to_nat (j_transfers r) <= n)%nat -> In r (reports T js1 j js2) ->
    exists r', In r' (reports T js1 j js2) /\ honest r' /\ sgn (j_dest r) <= sgn (j_dest r') /\
      (r' = r \/ j_transfers r' < j_transfers r).
  Proof.
    intros HT Ej. induction n as [|n IH]; intros r Hn Hr; destruct (Q_sound _ _ _ _ _ HT Ej Hr) as (_ & Htr & _ & Hh).
    - destruct Hh as [Hh|(r' & Hr' & Hlt & _)]; [exists r; repeat split; auto; lia|].
      destruct (Q_sound _ _ _ _ _ HT Ej Hr') as (_ & Htr' & _). lia.
    - destruct Hh as [Hh|(r' & Hr' & Hlt & Hd)]; [exists r; repeat split; auto; lia|].
      destruct (Q_sound _ _ _ _ _ HT Ej Hr') as (_ & Htr' & _).
      destruct (IH r' ltac:(lia) Hr') as (r2 & H2 & Hh2 & Hd2 & Hc). exists r2. split; auto. split; auto. split; [lia|].
      right. destruct Hc as [->|]; lia.
  Qed.

  Record inv (R : list presult) : Prop := mk_inv {
    iv_anti : antichain_r R;
    iv_dir : forall x, In x R -> sgn (j_dest (pr_j x)) < sgn (j_start (pr_j x));
    iv_tr : forall x, In x R -> 0 <= j_transfers (pr_j x);
    iv_honest : forall x, In x R -> honest (pr_j x);
    iv_best : forall x, In x R -> pr_rec x = true -> best_trip (pr_j x);
    iv_first : forall x, In x R -> pr_rec x = true -> sgn (first_start q) <= sgn (j_dest (pr_j x));
    iv_len : forall x, In x R -> pr_rec x = true -> sgn (j_start (pr_j x)) <= sgn (j_dest (pr_j x)) + look_ahead q;
    iv_mt : forall x, In x R -> pr_rec x = true -> j_transfers (pr_j x) <= Z.of_nat mt }.

  Lemma inv_nil : inv [].
  Proof. split; [intros [|i] j x y Hi; discriminate| | | | | | |]; intros x []. Qed.

  Section OnePong.
    Variables (T : Z) (js1 : list journey) (j : journey) (js2 : list journey) (R : list presult).
    Hypothesis HT : ok T.
    Hypothesis HTf : sgn (first_start q) <= sgn T.
    Hypothesis Ej : sort_pings (ping T) = js1 ++ j :: js2.
    Hypothesis HR : inv R.
    Notation reps := (reports T js1 j js2).
    Notation R' := (add_reports R reps).
    Lemma Hj : In j (ping T).
    Proof. apply sort_in. rewrite Ej, in_app_iff. cbn; auto. Qed.

    Lemma reports_inv : inv R'.
    Proof.
      assert (Hanti : antichain_r R') by (apply add_reports_antichain; apply HR).
      assert (Hsub : forall x, In x R' -> In x R \/ exists r, In r reps /\ x = mk_presult r false)
        by (intros x Hx; apply add_reports_subset; auto; apply HR).
      split; auto.
      - intros x Hx. destruct (Hsub x Hx) as [Hx'|(r & Hr & ->)]; [now apply HR|]. now apply (Q_sound _ _ _ _ _ HT Ej Hr).
      - intros x Hx. destruct (Hsub x Hx) as [Hx'|(r & Hr & ->)]; [now apply HR|]. now apply (Q_sound _ _ _ _ _ HT Ej Hr).
      - intros x Hx. destruct (Hsub x Hx) as [Hx'|(r & Hr & ->)]; [now apply HR|]. cbn [pr_j].
        destruct (report_cover T js1 j js2 HT Ej _ r (le_n _) Hr) as (r' & Hr' & Hh & Hd & [->|Hlt]); auto. exfalso.
        destruct (Q_sound _ _ _ _ _ HT Ej Hr) as (Es & _ & _ & _). destruct (Q_sound _ _ _ _ _ HT Ej Hr') as (Es' & _ & Hdir' & _).
        destruct (add_reports_covers reps R (mk_presult r' false)) as (x1 & Hx' & Hdom); [apply HR|right; exists r'; auto|].
        assert (Hne : x1 <> mk_presult r false).
        { intros ->. unfold presult_dominates in Hdom. cbn [pr_j] in Hdom. apply dom_pong in Hdom; [lia|].
          now apply (Q_sound _ _ _ _ _ HT Ej Hr). }
        assert (X := antichain_in _ _ _ Hanti Hx' Hx Hne).
        assert (Y : presult_dominates x1 (mk_presult r false) = true); [|congruence].
        eapply pr_trans; [exact Hdom|]. unfold presult_dominates. cbn [pr_j]. apply dom_pong; auto. rewrite Es, Es'. lia.
      - intros x Hx Hrec. destruct (Hsub x Hx) as [Hx'|(r & Hr & ->)]; [now apply HR|discriminate].
      - intros x Hx Hrec. destruct (Hsub x Hx) as [Hx'|(r & Hr & ->)]; [now apply HR|discriminate].
      - intros x Hx Hrec. destruct (Hsub x Hx) as [Hx'|(r & Hr & ->)]; [now apply HR|discriminate].
      - intros x Hx Hrec. destruct (Hsub x Hx) as [Hx'|(r & Hr & ->)]; [now apply HR|discriminate].
    Qed.

    (** Trips found already are not displaced. *)
    Lemma recs_stay x : In (mk_presult x true) R -> In (mk_presult x true) R'.
    Proof.
      intros Hx. apply add_reports_keeps; auto; [apply HR|]. cbn [pr_j]. intros r Hr Hdom.
      assert (Hb := iv_best _ HR _ Hx eq_refl). cbn [pr_j] in Hb. destruct Hb as [_ Hb].
      destruct (Q_sound _ _ _ _ _ HT Ej Hr) as (Es & Htr & Hdir & _). apply dom_pong in Hdom as (D1 & D2 & D3); auto.
      destruct (report_cover T js1 j js2 HT Ej _ r (le_n _) Hr) as (r' & Hr' & (K & HK & HB) & Hd & Hc).
      destruct (Q_sound _ _ _ _ _ HT Ej Hr') as (Es' & Htr' & Hdir' & _).
      destruct (B_F _ _ _ HB) as (a & Ha & HF).
      assert (Hle : j_transfers r' <= j_transfers r) by (destruct Hc as [->|]; lia).
      rewrite Es' in Ha. rewrite Es in D2.
      destruct (Hb (j_dest r') K a ltac:(lia) ltac:(lia) ltac:(lia) HF) as (E1 & E2 & E3).
      assert (Hrr : r' = r) by (destruct Hc as [->|]; auto; lia). subst r'.
      assert (sgn a = sgn (j_dest j)) by (subst a; lia).
      apply dom_pong; [apply (iv_dir _ HR _ Hx)|]. cbn [pr_j]. rewrite Es. subst a. rewrite E1. lia.
    Qed.

    (** There is a pong for the ping result. *)
    Lemma pong_found : exists x, In x R' /\ matches j x = true /\ sgn T <= sgn (j_dest (pr_j x)) /\ best_trip (pr_j x) /\
      forall y, In y R' -> matches j y = true -> y = x.
    Proof.
      assert (HI := reports_inv). assert (Hjin := Hj).
      destruct (P_sound _ _ HT Hjin) as (Es & Htr & Hw & _).
      assert (HF := ping_exact T j HT Hjin). destruct (F_B _ _ _ HF) as (d & Hd & HB).
      destruct (Q_complete _ _ _ _ _ _ HT Ej HB ltac:(lia) Hd) as (r & Hr & Hrt & Hrd).
      destruct (Q_sound _ _ _ _ _ HT Ej Hr) as (Ers & Hrtr & Hrdir & _).
      destruct (add_reports_covers reps R (mk_presult r false)) as (x & Hx & Hdom); [apply HR|right; exists r; auto|].
      assert (Hxd := iv_dir _ HI _ Hx). assert (Hxt := iv_tr _ HI _ Hx).
      unfold presult_dominates in Hdom. cbn [pr_j] in Hdom. apply dom_pong in Hdom as (D1 & D2 & D3); auto.
      destruct (iv_honest _ HI _ Hx) as (K & HK & HBx). destruct (B_F _ _ _ HBx) as (a & Ha & HFx).
      rewrite Ers in D2.
      assert (HFT : F T K a) by (apply (F_earlier (j_dest (pr_j x))); auto; lia).
      destruct (ping_tight T j K a HT Hjin HFT ltac:(lia) ltac:(lia)) as [EK Ea].
      assert (Ext : j_transfers (pr_j x) = j_transfers j) by lia.
      assert (Exs : j_start (pr_j x) = j_dest j) by (apply sgn_inj; subst a; lia).
      assert (Hm : matches j x = true) by (unfold matches; rewrite Ext, Exs, !Z.eqb_refl; reflexivity).
      exists x. split; auto. split; auto. split; [lia|]. split.
      - split.
        + rewrite Ext, Exs. replace (Z.to_nat (j_transfers j + 1)) with K by lia. subst a. exact HFx.
        + intros T' K' a' H1 H2 H3 HF'. rewrite Ext in H2. rewrite Exs in H3.
          assert (HF2 : F T K' a') by (apply (F_earlier T'); auto; lia).
          destruct (ping_tight T j K' a' HT Hjin HF2 H2 H3) as [EK' Ea']. subst a'.
          split; [|split; lia].
          destruct (F_B _ _ _ HF') as (d' & Hd' & HB'). 
          destruct (Q_complete _ _ _ _ _ _ HT Ej HB' ltac:(lia) ltac:(lia)) as (r2 & Hr2 & Hrt2 & Hrd2).
          destruct (Q_sound _ _ _ _ _ HT Ej Hr2) as (Ers2 & _ & Hrdir2 & _).
          destruct (add_reports_covers reps R (mk_presult r2 false)) as (x2 & Hx2 & Hdom2); [apply HR|right; exists r2; auto|].
          assert (Hx2d := iv_dir _ HI _ Hx2).
          unfold presult_dominates in Hdom2. cbn [pr_j] in Hdom2. apply dom_pong in Hdom2 as (G1 & G2 & G3); auto.
          destruct (Z.eq_dec (sgn T') (sgn (j_dest (pr_j x)))) as [E|Hne]; [now apply sgn_inj|]. exfalso.
          assert (Hxx : x2 <> x) by (intros ->; lia).
          assert (X := antichain_in _ _ _ (iv_anti _ HI) Hx2 Hx Hxx).
          assert (Y : presult_dominates x2 x = true); [|congruence].
          apply dom_pong; auto. rewrite Ext, Exs. rewrite Ers2 in G2. lia.
      - intros y Hy Hmy. unfold matches in Hmy. apply andb_true_iff in Hmy as [My1 My2]. apply Z.eqb_eq in My1, My2.
        destruct (presult_eq_dec y x) as [E|Hne]; auto. exfalso.
        assert (Hyd := iv_dir _ HI _ Hy).
        assert (X := antichain_in _ _ _ (iv_anti _ HI) Hy Hx Hne).
        assert (Y := antichain_in _ _ _ (iv_anti _ HI) Hx Hy ltac:(auto)).
        unfold presult_dominates in X, Y.
        destruct (Z.le_ge_cases (sgn (j_dest (pr_j x))) (sgn (j_dest (pr_j y)))) as [L|L].
        + assert (Z1 : journey_dominates (pr_j y) (pr_j x) = true); [|congruence]. apply dom_pong; auto. rewrite My1, My2, Ext, Exs. lia.
        + assert (Z1 : journey_dominates (pr_j x) (pr_j y) = true); [|congruence]. apply dom_pong; auto. rewrite My1, My2, Ext, Exs. lia.
    Qed.

    Lemma run_pong_spec a : a = state_before T (js1 ++ j :: js2) js1 ->
      match run_pong A pong_execute reconstruct T a R j with
      | Done (a', R2, d) =>
          a' = state_before T (js1 ++ j :: js2) (js1 ++ [j]) /\ inv R2 /\
          (forall x, In (mk_presult x true) R -> In (mk_presult x true) R2) /\
          exists x, In (mk_presult x true) R2 /\ j_transfers x = j_transfers j /\ j_start x = j_dest j /\ j_dest x = d /\ sgn T <= sgn d
      | Throw e => e = ReconstructFailed /\ exists a x, reconstruct a x = false
      end.
    Proof.
      intros ->. unfold run_pong.
      assert (Er : reps = snd (pong_execute (state_before T (js1 ++ j :: js2) js1) T j)) by reflexivity.
      assert (Ea : fst (pong_execute (state_before T (js1 ++ j :: js2) js1) T j) = state_before T (js1 ++ j :: js2) (js1 ++ [j])).
      { unfold state_before at 2. rewrite fold_left_app. reflexivity. }
      assert (HF := pong_found). assert (HI := reports_inv). assert (HS := recs_stay).
      destruct (pong_execute (state_before T (js1 ++ j :: js2) js1) T j) as [a' js] eqn:E. cbn [fst snd] in Er, Ea.
      rewrite Er in HF, HI, HS. destruct HF as (x & Hx & Hm & Hd & Hb & Hu).
      assert (M := mark_match_spec j (add_reports R js)).
      destruct (mark_match j (add_reports R js)) as [[[y b] R2]|].
      2:{ rewrite (M x Hx) in Hm. discriminate. }
      destruct M as (R1 & r & R3 & E1 & Hmr & -> & -> & ->).
      assert (Hrx : r = x) by (apply Hu; auto; rewrite E1, in_app_iff; cbn; auto). subst r.
      destruct (pr_rec x || reconstruct a' (pr_j x)) eqn:Erec.
      2:{ apply orb_false_iff in Erec as [_ Erec]. split; auto. exists a', (pr_j x). auto. }
      assert (Hin : forall z, In z (R1 ++ mk_presult (pr_j x) true :: R3) -> In z (add_reports R js) \/ z = mk_presult (pr_j x) true).
      { intros z Hz. rewrite E1. apply in_app_iff in Hz. rewrite in_app_iff. cbn [In] in *. intuition. }
      split; [exact Ea|]. split; [|split].
      - split.
        + apply antichain_map. assert (X := proj1 (antichain_map _) (iv_anti _ HI)). rewrite E1 in X.
          rewrite map_app in *. exact X.
        + intros z Hz. destruct (Hin z Hz) as [Hz'| ->]; [now apply HI|]. cbn [pr_j]. now apply (iv_dir _ HI).
        + intros z Hz. destruct (Hin z Hz) as [Hz'| ->]; [now apply HI|]. cbn [pr_j]. now apply (iv_tr _ HI).
        + intros z Hz. destruct (Hin z Hz) as [Hz'| ->]; [now apply HI|]. cbn [pr_j]. now apply (iv_honest _ HI).
        + intros z Hz Hrec. destruct (Hin z Hz) as [Hz'| ->]; [now apply HI|]. exact Hb.
        + intros z Hz Hrec. destruct (Hin z Hz) as [Hz'| ->]; [now apply HI|]. cbn [pr_j]. lia.
        + intros z Hz Hrec. destruct (Hin z Hz) as [Hz'| ->]; [now apply HI|]. cbn [pr_j].
          destruct (P_sound _ _ HT Hj) as (_ & _ & Hw & _). rewrite sgn_worst in Hw.
          unfold matches in Hm. apply andb_true_iff in Hm as [_ M2]. apply Z.eqb_eq in M2. rewrite M2. lia.
        + intros z Hz Hrec. destruct (Hin z Hz) as [Hz'| ->]; [now apply HI|]. cbn [pr_j].
          destruct (P_sound _ _ HT Hj) as (_ & Hmt & _ & _).
          unfold matches in Hm. apply andb_true_iff in Hm as [M1 _]. apply Z.eqb_eq in M1. rewrite M1. lia.
      - intros z Hz. apply HS in Hz. rewrite E1 in Hz. apply in_app_iff in Hz. apply in_app_iff. cbn [In] in *.
        destruct Hz as [Hz|[Hz|Hz]]; auto. right. left. subst x. reflexivity.
      - unfold matches in Hm. apply andb_true_iff in Hm as [M1 M2]. apply Z.eqb_eq in M1, M2.
        exists (pr_j x). split; [apply in_app_iff; cbn; auto|]. auto.
    Qed.
  End OnePong.

  Definition answered (R : list presult) (T : Z) (j : journey) (d : Z) : Prop :=
    exists x, In (mk_presult x true) R /\ j_transfers x = j_transfers j /\ j_start x = j_dest j /\ j_dest x = d /\ sgn T <= sgn d.

  Lemma run_pongs_spec T js : ok T -> sgn (first_start q) <= sgn T -> sort_pings (ping T) = js -> forall js2 js1 R, js = js1 ++ js2 -> inv R ->
    match run_pongs A pong_execute reconstruct T (state_before T js js1) R js2 with
    | Done (R2, ds) =>
        inv R2 /\ (forall x, In (mk_presult x true) R -> In (mk_presult x true) R2) /\ Forall2 (answered R2 T) js2 ds
    | Throw e => e = ReconstructFailed /\ exists a x, reconstruct a x = false
    end.
  Proof.
    intros HT HTf Ejs. induction js2 as [|j js2 IH]; intros js1 R E HR; cbn [run_pongs]; [auto|].
    assert (Ej : sort_pings (ping T) = js1 ++ j :: js2) by congruence.
    assert (N := run_pong_spec T js1 j js2 R HT HTf Ej HR (state_before T js js1)). rewrite <- E in N. specialize (N eq_refl).
    destruct (run_pong A pong_execute reconstruct T (state_before T js js1) R j) as [[[a' R1] d]|e]; [|exact N].
    destruct N as (-> & HR1 & Hst & Hans).
    specialize (IH (js1 ++ [j]) R1). rewrite <- app_assoc in IH. specialize (IH E HR1).
    destruct (run_pongs A pong_execute reconstruct T (state_before T js (js1 ++ [j])) R1 js2) as [[R2 ds]|e]; [|exact IH].
    destruct IH as (HR2 & Hst2 & Hf). split; auto. split; auto. constructor; auto.
    destruct Hans as (x & Hx & Hy). exists x. auto.
  Qed.

  Lemma first_departure_le ds d : In d ds -> sgn (first_departure q ds) <= sgn d.
  Proof.
    assert (G : forall l m, sgn (fold_left (fun m x => if is_better x m then x else m) l m) <= sgn m /\
                forall x, In x l -> sgn (fold_left (fun m x => if is_better x m then x else m) l m) <= sgn x).
    { induction l as [|y l IH]; intros m; cbn [fold_left]; [split; [lia|intros x []]|].
      destruct (IH (if is_better y m then y else m)) as [I1 I2].
      assert (X : sgn (if is_better y m then y else m) <= sgn m /\ sgn (if is_better y m then y else m) <= sgn y).
      { destruct (is_better y m) eqn:E; [apply is_better_s in E|apply is_better_s_false in E]; lia. }
      split; [lia|]. intros x [<-|Hx]; [lia|auto]. }
    destruct ds as [|d0 ds]; [intros []|]. cbn [first_departure]. destruct (G ds d0) as [G1 G2]. intros [<-|Hd]; auto.
  Qed.
  Lemma first_departure_in d0 ds : In (first_departure q (d0 :: ds)) (d0 :: ds).
  Proof.
    cbn [first_departure]. revert d0. induction ds as [|y l IH]; intros m; cbn [fold_left]; [left; auto|].
    destruct (IH (if is_better y m then y else m)) as [E|Hin].
    - destruct (is_better y m); rewrite <- E; cbn; auto.
    - cbn; auto.
  Qed.

  (** The comparison of ping results with the results so far never removes one. *)
  Lemma filter_noop T R : ok T -> inv R ->
    filter (fun x => negb (existsb (fun r => journey_dominates (pr_j r) x) R)) (ping T) = ping T.
  Proof.
    intros HT HR. apply filter_true. intros x Hx. apply negb_true_iff. destruct (existsb _ R) eqn:E; auto. exfalso.
    apply existsb_exists in E as (r & Hr & Hd). apply dom_pong in Hd as (D1 & D2 & D3); [|now apply HR].
    assert (X := iv_dir _ HR _ Hr). destruct (P_sound _ _ HT Hx) as (Es & _ & _ & K & _ & HF). apply F_time in HF as [_ HF].
    rewrite Es in D2. lia.
  Qed.

  (** No trip is at least as good as this one. *)
  Definition undominated (T : Z) (K : nat) (a : Z) : Prop :=
    F T K a /\ forall T' K' a', sgn T <= sgn T' -> (K' <= K)%nat -> sgn a' <= sgn a -> F T' K' a' -> T' = T /\ K' = K /\ a' = a.
  (** Before [T0], an undominated trip within the look-ahead begins on every day. *)
  Definition no_gap (T0 : Z) : Prop :=
    forall T, sgn (first_start q) <= sgn T -> sgn T + 1440 < sgn T0 ->
      exists T' K a, sgn T <= sgn T' <= sgn T + 1440 /\ (K <= S mt)%nat /\ sgn a <= sgn T + look_ahead q /\ undominated T' K a.
  Definition in_view (T0 a : Z) : Prop :=
    sgn a <= sgn (first_start q) + look_ahead q \/ (sgn a <= sgn T0 + (look_ahead q - 1440) /\ no_gap T0).

  (** Every trip in view that begins in the part searched so far is matched. *)
  Definition covered (R : list presult) (T : Z) : Prop :=
    forall T0 K a, sgn (first_start q) <= sgn T0 -> sgn T0 < sgn T -> F T0 K a -> (K <= S mt)%nat ->
      in_view T0 a ->
      exists x, In (mk_presult x true) R /\ sgn T0 <= sgn (j_dest x) /\ sgn (j_start x) <= sgn a /\ j_transfers x <= Z.of_nat K - 1.
  Definition nothing_ahead (T : Z) : Prop :=
    forall T0 K a, sgn T <= sgn T0 -> F T0 K a -> (K <= S mt)%nat -> ~ sgn a <= sgn T + look_ahead q.

  Hypothesis ok_T : forall n T R, sgn (first_start q) <= sgn T -> continue q timeout n T R = true -> ok T.

  Lemma loop_spec : forall fuel n R T, inv R -> covered R T -> sgn (first_start q) <= sgn T ->
    match loop q A ping pong_init pong_execute reconstruct timeout fuel n R T with
    | Done (R2, T2) =>
        inv R2 /\ covered R2 T2 /\ sgn T <= sgn T2 /\
        ((exists n2, continue q timeout n2 T2 R2 = false) \/ nothing_ahead T2)
    | Throw e => e = OutOfFuel \/ (e = ReconstructFailed /\ exists a x, reconstruct a x = false)
    end.
  Proof.
    induction fuel as [|fuel IH]; intros n R T HR HC HT; cbn [loop]; [auto|].
    destruct (continue q timeout n T R) eqn:Ec.
    2:{ split; auto. split; auto. split; [lia|]. left. exists n. auto. }
    assert (Hok := ok_T n T R HT Ec).
    destruct (ping T) as [|j0 jl] eqn:Ep.
    - split; auto. split; auto. split; [lia|]. right. intros T0 K a H0 HF HK Ha.
      destruct (P_complete T K a Hok (F_earlier _ _ _ _ H0 HF) HK ltac:(rewrite sgn_worst; lia)) as (j & Hj & _).
      rewrite Ep in Hj. destruct Hj.
    - rewrite <- Ep, (filter_noop T R Hok HR).
      destruct (sort_pings (ping T)) as [|j1 js] eqn:Es.
      { exfalso. assert (X : In j0 (sort_pings (ping T))) by (apply sort_in; rewrite Ep; cbn; auto). rewrite Es in X. destruct X. }
      set (pings := j1 :: js) in *.
      assert (N := run_pongs_spec T pings Hok HT Es pings [] R eq_refl HR).
      change (state_before T pings []) with (pong_init T pings) in N.
      destruct (run_pongs A pong_execute reconstruct T (pong_init T pings) R pings) as [[R2 ds]|e]; [|auto].
      destruct N as (HR2 & Hst & Hf). cbv zeta.
      assert (Hds : exists d0 ds', ds = d0 :: ds') by (inversion Hf; eauto). destruct Hds as (d0 & ds' & Eds).
      assert (HdT : forall d, In d ds -> sgn T <= sgn d).
      { clear - Hf. intros d Hd. induction Hf as [|x y l l' Hxy Hl IHl]; [destruct Hd|]. destruct Hd as [<-|Hd]; auto.
        destruct Hxy as (z & _ & _ & _ & _ & Hz). exact Hz. }
      assert (Hnext : sgn T < sgn (first_departure q ds + one q)).
      { rewrite sgn_one. assert (X := HdT (first_departure q ds)). rewrite Eds in X at 1.
        specialize (X (eq_ind_r (fun z => In (first_departure q (d0 :: ds')) z) (first_departure_in d0 ds') Eds)). lia. }
      rewrite (proj2 (is_better_s _ _) Hnext).
      specialize (IH (S n) R2 (first_departure q ds + one q) HR2).
      assert (HC2 : covered R2 (first_departure q ds + one q)).
      { intros T0 K a H0 H1 HF HK Ha. rewrite sgn_one in H1.
        destruct (Z.lt_ge_cases (sgn T0) (sgn T)) as [Hlt|Hge].
        - destruct (HC T0 K a H0 Hlt HF HK Ha) as (x & Hx & Hy). exists x. auto.
        - assert (Hall : forall j, In j (ping T) -> exists d, In d ds /\ answered R2 T j d).
          { intros j Hj. assert (Hjs : In j pings) by (rewrite <- Es; now apply sort_in). clear - Hf Hjs. induction Hf as [|x y l l' Hxy Hl IHl]; [destruct Hjs|]. destruct Hjs as [->|Hjs].
            - exists y. cbn; auto.
            - destruct (IHl Hjs) as (d & Hd & Ha). exists d. cbn; auto. }
          assert (Hview : sgn a <= sgn T + look_ahead q).
          { destruct Ha as [Ha|[Ha Hgap]]; [lia|]. destruct (Z.le_gt_cases (sgn T0) (sgn T + 1440)) as [|Hfar]; [lia|].
            destruct (Hgap T HT Hfar) as (T' & K' & a' & HT' & HK' & Ha' & HF' & Hu).
            destruct (P_complete T K' a' Hok (F_earlier T' T K' a' ltac:(lia) HF') HK' ltac:(rewrite sgn_worst; lia)) as (j' & Hj' & Hjt' & Hjd').
            destruct (Hall j' Hj') as (d & Hd & (x & Hx & Ex1 & Ex2 & Ex3 & Hd')).
            (* the answer is at least as good as the undominated trip if it begins no earlier *)
            assert (Hb := iv_best _ HR2 _ Hx eq_refl). cbn [pr_j] in Hb. destruct Hb as [Hb1 Hb2].
            assert (Hle : sgn d <= sgn T').
            { destruct (Z.le_gt_cases (sgn d) (sgn T')) as [|Hgt]; auto.
              assert (Htr := iv_tr _ HR2 _ Hx). cbn [pr_j] in Htr.
              destruct (Hu (j_dest x) (Z.to_nat (j_transfers x + 1)) (j_start x)) as (E1 & _ & _); auto; try lia.
              - rewrite Ex3. lia.
              - rewrite Ex2. lia.
              - rewrite Ex3 in E1. subst T'. lia. }
            assert (X := first_departure_le ds d Hd). lia. }
          destruct (P_complete T K a Hok (F_earlier _ _ _ _ Hge HF) HK ltac:(rewrite sgn_worst; lia)) as (j & Hj & Hjt & Hjd).
          destruct (Hall j Hj) as (d & Hd & (x & Hx & Ex1 & Ex2 & Ex3 & _)).
          assert (X := first_departure_le ds d Hd). exists x. split; auto. rewrite Ex1, Ex2, Ex3. lia. }
      specialize (IH HC2 ltac:(lia)).
      destruct (loop q A ping pong_init pong_execute reconstruct timeout fuel (S n) R2 (first_departure q ds + one q)) as [[R3 T3]|e]; auto.
      destruct IH as (I1 & I2 & I3 & I4). split; auto. split; auto. split; [lia|auto].
  Qed.
End Loop.

(** Termination, for any two searches: every iteration moves the start time on, and it has to lie in the external interval. *)
Lemma loop_terminates q A ping pong_init pong_execute reconstruct timeout : forall fuel n R T,
  (if pq_fwd q then Z.max 0 (iv_to (pq_external q) - Z.max T (iv_from (pq_external q)))
   else Z.max 0 (Z.min T (iv_to (pq_external q) - 1) + 1 - iv_from (pq_external q))) < Z.of_nat fuel ->
  loop q A ping pong_init pong_execute reconstruct timeout fuel n R T <> Throw OutOfFuel.
Proof.
  induction fuel as [|fuel IH]; intros n R T Hf; cbn [loop].
  - destruct (pq_fwd q); lia.
  - destruct (continue q timeout n T R) eqn:Ec; [|discriminate].
    destruct (ping T); [discriminate|].
    destruct (sort_pings _) as [|j1 js]; [discriminate|].
    assert (Hrp : forall l a R, run_pongs A pong_execute reconstruct T a R l <> Throw OutOfFuel).
    { clear. induction l as [|x l IH]; intros a R; cbn [run_pongs]; [discriminate|].
      assert (X : run_pong A pong_execute reconstruct T a R x <> Throw OutOfFuel).
      { unfold run_pong. destruct (pong_execute a T x). destruct (mark_match x _) as [[[? ?] ?]|]; [|discriminate].
        destruct (_ || _); discriminate. }
      destruct (run_pong A pong_execute reconstruct T a R x) as [[[a' R'] d]|e]; [|congruence].
      specialize (IH a' R'). destruct (run_pongs A pong_execute reconstruct T a' R' l) as [[? ?]|e]; [discriminate|congruence]. }
    specialize (Hrp (j1 :: js) (pong_init T (j1 :: js)) R).
    destruct (run_pongs A pong_execute reconstruct T (pong_init T (j1 :: js)) R (j1 :: js)) as [[R2 ds]|e]; [|congruence].
    cbv zeta. destruct (is_better q T (first_departure q ds + one q)) eqn:Eb; [|discriminate].
    apply IH. unfold continue in Ec. apply andb_true_iff in Ec as [Ec _]. apply andb_true_iff in Ec as [_ Ec].
    unfold iv_contains in Ec. apply andb_true_iff in Ec as [E1 E2]. apply Z.leb_le in E1. apply Z.ltb_lt in E2.
    unfold is_better in Eb. destruct (pq_fwd q); apply Z.ltb_lt in Eb; lia.
Qed.
