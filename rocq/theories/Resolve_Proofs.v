(** Proofs about the lookup by trip descriptor. *)
From Coq Require Import List ZArith Bool Arith Permutation Lia.
From Verif Require Import Base Time_Model Time_Proofs Calendar_Model Routes_Model P_Routes Utc_Model Utc_Proofs P_Utc Resolve_Model Resolve_Spec.
Import ListNotations.
Local Open Scope Z_scope.

Section Made.
  Variable n_days : nat.
  Variable noon : Z -> Z.
  Variable sel : interval.
  Hypothesis Hnoon : forall d, -720 <= noon d <= 900 /\ noon d <> -1.
  Definition day_offset (f : freq_trip) (D : Z) : Z := (hd 0 (local_schedule f) - noon D) / 1440.
  Definition stamps (vs : list utc_trip) : list (Z * Z * Z) :=
    flat_map (fun v => map (fun u => (ut_first_dep_offset v, ut_tz_offset v, u)) (filter (ut_days v) day_list)) vs.
  (** [vs] are the vehicles of chain [f]. *)
  Record made (traffic : bitfield) (f : freq_trip) (vs : list utc_trip) : Prop := {
    md_trips : forall v, In v vs -> ut_trips v = map fst (usable_trips f);
    md_days : forall v u, In v vs -> ut_days v u = true -> 0 <= u < 512;
    md_times : forall v u, In v vs -> ut_days v u = true -> ut_times v = map (fun t => t - (ut_tz_offset v + ut_first_dep_offset v * 1440)) (local_schedule f);
    md_stamps : Permutation (stamps vs) (map (fun D => (day_offset f D, noon D, D + day_offset f D)) (filter (operates sel traffic noon (local_schedule f)) (map Z.of_nat (seq 0 n_days)))) }.

  Lemma made_expand traffic f : good_chain f -> made traffic f (expand_local_to_utc n_days noon sel traffic f).
  Proof.
    intros [Hoff Hinc Hmax Hne _].
    unfold expand_local_to_utc. destruct (usable_trips f) as [|[first o] rest] eqn:Eu; [tauto|]. clear Hne.
    set (tos := (first, o) :: rest) in *.
    assert (Husable : forall to, In to tos -> (2 <= length (gt_events (fst to)))%nat).
    { intros to Hin. rewrite <- Eu in Hin. unfold usable_trips in Hin. apply filter_In in Hin. destruct Hin as [_ Hu].
      unfold usable in Hu. apply andb_true_iff in Hu. destruct Hu as [Hu _]. apply Nat.ltb_lt in Hu. lia. }
    assert (Hof : forall to, In to tos -> snd to = o) by (intros to Hin; apply (Hoff to (first, o)); auto; left; auto).
    unfold day_offset in *. set (local := local_schedule f) in *.
    assert (Hlocal : local = flat_map (fun to => local_times (snd to) (gt_events (fst to))) tos)
      by (unfold local, local_schedule; now rewrite Eu).
    set (back := last tos (first, 0)).
    assert (Hback : In back tos) by (apply last_in; discriminate).
    assert (Hbo : snd back = o) by auto.
    assert (Hfirst : hd 0 local = front_dep first - o /\ local <> []).
    { rewrite Hlocal. unfold tos. simpl. assert (H := Husable (first, o) ltac:(left; auto)). simpl in H.
      unfold front_dep. destruct (gt_events first) as [|e [|e' evs]]; simpl in *; try lia. split; [auto|discriminate]. }
    destruct Hfirst as [Hfirst Hlne].
    assert (Hlast : last local 0 = back_arr (fst back) - o).
    { rewrite Hlocal. unfold back.
      assert (Hgen : forall l x, (forall to, In to (x :: l) -> (2 <= length (gt_events (fst to)))%nat /\ snd to = o) ->
         last (flat_map (fun to => local_times (snd to) (gt_events (fst to))) (x :: l)) 0
         = back_arr (fst (last (x :: l) (first, 0))) - o).
      { intros l. induction l as [|y l IH]; intros x Hx.
        - simpl. rewrite app_nil_r. destruct (Hx x) as [H1 H2]; [now left|]. rewrite last_local_times by auto.
          unfold back_arr. rewrite H2. destruct (rev (gt_events (fst x))) as [|e l] eqn:E; auto.
          apply (f_equal (@length _)) in E. rewrite rev_length in E. simpl in E. lia.
        - change (last (x :: y :: l) (first, 0)) with (last (y :: l) (first, 0)).
          rewrite <- IH by (intros; apply Hx; now right).
          change (flat_map (fun to => local_times (snd to) (gt_events (fst to))) (x :: y :: l))
            with (local_times (snd x) (gt_events (fst x)) ++ flat_map (fun to => local_times (snd to) (gt_events (fst to))) (y :: l)).
          apply last_app_nonempty. simpl. intros H. apply app_eq_nil in H. destruct H as [H _].
          revert H. apply local_times_nonempty. apply (Hx y). right; now left. }
      apply Hgen. intros to Hin. split; [auto|auto]. }
    assert (Hin_first : In (hd 0 local) local) by (destruct local; [tauto|left; auto]).
    assert (Hin_last : In (last local 0) local) by (apply last_in; auto).
    assert (B1 := increasing_ge _ _ _ Hinc Hin_first). assert (B2 := Hmax _ Hin_first).
    assert (B3 := increasing_ge _ _ _ Hinc Hin_last). assert (B4 := Hmax _ Hin_last).
    cbv zeta. rewrite Hbo.
    rewrite (to_i16_id (front_dep first - o)) by lia. rewrite (to_i16_id (back_arr (fst back) - o)) by lia.
    rewrite <- Hfirst, <- Hlast.
    set (first_dep := hd 0 local) in *. set (last_arr := last local 0) in *.
    rewrite !Z.quot_div_nonneg by lia.
    set (off := fun D => (first_dep - noon D) / 1440).
    assert (Hent : forall D,
      (if negb (iv_overlaps sel (mk_iv (D + first_dep / 1440) (D + last_arr / 1440 + 1))) then []
       else if negb ((D <? Calendar_Model.kMaxDays) && bf_test traffic D) then []
       else if (D + to_i16 (first_dep - noon D) / 1440 <? 0) || (Calendar_Model.kMaxDays <=? D + to_i16 (first_dep - noon D) / 1440) then []
            else [((to_i16 (first_dep - noon D) / 1440, noon D), D + to_i16 (first_dep - noon D) / 1440)])
      = if operates sel traffic noon local D then [((off D, noon D), D + off D)] else []).
    { intros D. destruct (Hnoon D) as [Hn _]. rewrite to_i16_id by lia. fold (off D).
      unfold operates, iv_overlaps, bf_test, Calendar_Model.kMaxDays. cbn [iv_from iv_to].
      fold first_dep last_arr.
      assert (Hdiv : (D * 1440 + first_dep - noon D) / 1440 = D + off D).
      { unfold off. replace (D * 1440 + first_dep - noon D) with (first_dep - noon D + D * 1440) by lia.
        rewrite Z.div_add by lia. lia. }
      rewrite Hdiv.
      replace (iv_from sel <? D + last_arr / 1440 + 1) with (iv_from sel <=? D + last_arr / 1440)
        by (destruct (Z.leb_spec (iv_from sel) (D + last_arr / 1440)); destruct (Z.ltb_spec (iv_from sel) (D + last_arr / 1440 + 1)); auto; lia).
      replace (D + off D <? 0) with (negb (0 <=? D + off D))
        by (destruct (Z.leb_spec 0 (D + off D)); destruct (Z.ltb_spec (D + off D) 0); auto; lia).
      replace (512 <=? D + off D) with (negb (D + off D <? 512))
        by (destruct (Z.leb_spec 512 (D + off D)); destruct (Z.ltb_spec (D + off D) 512); auto; lia).
      destruct (iv_from sel <=? D + last_arr / 1440); destruct (D + first_dep / 1440 <? iv_to sel);
        destruct (D <? 512); destruct (traffic D); destruct (0 <=? D + off D); destruct (D + off D <? 512); reflexivity. }
    erewrite flat_map_ext by (intros d; apply Hent).
    set (days := map Z.of_nat (seq 0 n_days)).
    assert (Hfm : flat_map (fun d => if operates sel traffic noon local (Z.of_nat d) then [(off (Z.of_nat d), noon (Z.of_nat d), Z.of_nat d + off (Z.of_nat d))] else []) (seq 0 n_days)
      = map (fun D => ((off D, noon D), D + off D)) (filter (operates sel traffic noon local) days)).
    { unfold days. rewrite <- flat_map_filter. rewrite flat_map_concat_map, flat_map_concat_map, map_map. reflexivity. }
    rewrite Hfm. clear Hfm Hent.
    set (ents := map _ (filter _ days)).
    assert (Hdays : NoDup days) by (apply NoDup_map_inj; [intros; lia|apply seq_NoDup]).
    assert (Hp1 : NoDup ents).
    { apply NoDup_map_inj; [|now apply NoDup_filter]. intros x y _ _ H. injection H as H1 H2 H3. lia. }
    assert (Hp2 : forall k d, In (k, d) ents -> 0 <= d < 512 /\ k <> (2, -1)).
    { intros k d H. apply in_map_iff in H. destruct H as (D & H & HD). injection H as <- <-.
      apply filter_In in HD. destruct HD as [_ HD]. unfold operates in HD.
      rewrite !andb_true_iff, Z.leb_le, !Z.ltb_lt, !Z.leb_le in HD.
      assert (Hdiv : (D * 1440 + hd 0 local - noon D) / 1440 = D + off D).
      { unfold off. fold first_dep. replace (D * 1440 + first_dep - noon D) with (first_dep - noon D + D * 1440) by lia.
        rewrite Z.div_add by lia. lia. }
      split; [lia|]. destruct (Hnoon D) as [_ Hn]. congruence. }
    assert (HP := group_permutation key_eqb key_eqb_spec ents (2, -1) Hp1 Hp2).
    destruct (group_loop_spec key_eqb key_eqb_spec ents (2, -1) []) as (_ & HG & _); [constructor|intros k d H ->; exfalso; apply (proj2 (Hp2 _ _ H) eq_refl)|].
    set (m := group_loop key_eqb ents (2, -1) []) in *.
    assert (Hhas : forall k b u, In (k, b) m -> b u = true -> In (k, u) ents).
    { intros k b u H1 H2. assert (X : has m k u) by (exists b; auto). apply HG in X. destruct X as [(b' & [] & _)|X]. exact X. }
    assert (Hb : forall D, In D days -> build_time_string tos (off D, noon D) = map (fun t => t - (noon D + off D * 1440)) local).
    { intros D _. unfold build_time_string. cbn [fst snd]. destruct (Hnoon D) as [Hn _].
      assert (Hoffr : off D * 1440 <= first_dep - noon D < off D * 1440 + 1440).
      { unfold off. pose proof (Z.div_mod (first_dep - noon D) 1440). pose proof (Z.mod_pos_bound (first_dep - noon D) 1440). lia. }
      assert (Hse : flat_map (fun to => section_times (snd to + noon D + off D * 1440) (gt_events (fst to))) tos
                    = map (fun t => t - (noon D + off D * 1440)) local).
      { rewrite Hlocal. assert (Hsub : forall to t, In to tos -> In t (local_times (snd to) (gt_events (fst to))) -> In t local)
          by (intros to t H1 H2; rewrite Hlocal; apply in_flat_map; eauto).
        clear - Hsub Hinc Hmax Hoffr Hn B1 B2. revert Hsub. generalize tos. intros l. induction l as [|to l IH]; intros Hsub; [reflexivity|].
        cbn [flat_map]. rewrite map_app, IH by (intros; eapply Hsub; [right|]; eauto).
        f_equal. rewrite <- Z.add_assoc. apply section_times_local.
        intros t Ht. assert (Hin : In t local) by (eapply Hsub; [now left|auto]).
        assert (T1 := Hmax _ Hin). assert (T2 := increasing_ge _ _ _ Hinc Hin). lia. }
      rewrite Hse. apply running_max_id.
      apply (increasing_weaken (0 - (noon D + off D * 1440))).
      - destruct local as [|x l]; simpl; auto. unfold first_dep in Hoffr. simpl in Hoffr. lia.
      - now apply increasing_shift. }
    split.
    - intros v Hv. apply in_map_iff in Hv. destruct Hv as (kb & <- & _). rewrite Eu. reflexivity.
    - intros v u Hv Hu. apply in_map_iff in Hv. destruct Hv as ((k, b) & <- & Hm). cbn in Hu. exact (proj1 (Hp2 _ _ (Hhas _ _ _ Hm Hu))).
    - intros v u Hv Hu. apply in_map_iff in Hv. destruct Hv as ((k, b) & <- & Hm). cbn [ut_times ut_tz_offset ut_first_dep_offset fst snd ut_days] in *.
      pose proof (Hhas _ _ _ Hm Hu) as HE. apply in_map_iff in HE. destruct HE as (D & HE & HD). injection HE as <- _.
      apply filter_In in HD. rewrite Hb by apply HD. reflexivity.
    - unfold stamps. assert (Hl : flat_map (fun v => map (fun u => (ut_first_dep_offset v, ut_tz_offset v, u)) (filter (ut_days v) day_list))
        (map (fun kb => mk_utc (fst (fst kb)) (snd (fst kb)) (map fst tos) (build_time_string tos (fst kb)) (snd kb) []) m)
        = flat_map (fun kb => map (pair (fst kb)) (filter (snd kb) day_list)) m).
      { clear. induction m as [|[[k1 k2] b] m IH]; [reflexivity|]. cbn [map flat_map]. rewrite IH. reflexivity. }
      rewrite Hl. exact HP.
  Qed.

  Lemma stamps_app a b : stamps (a ++ b) = stamps a ++ stamps b.
  Proof. unfold stamps. apply flat_map_app. Qed.
  Lemma assistance_stamps avail u : (forall d, ut_days u d = true -> 0 <= d < 512) -> (1 <= length (get_stop_seq u))%nat ->
    (forall v, In v (expand_assistance avail u) -> ut_trips v = ut_trips u /\ ut_times v = ut_times u /\ ut_first_dep_offset v = ut_first_dep_offset u /\ ut_tz_offset v = ut_tz_offset u /\
       forall d, ut_days v d = true -> ut_days u d = true) /\
    Permutation (stamps (expand_assistance avail u)) (stamps [u]).
  Proof.
    intros Hd Hlen. unfold expand_assistance. set (ents := map (fun d => (assisted_seq avail u d, d)) (filter (ut_days u) day_list)).
    assert (Hne : forall d, assisted_seq avail u d <> []).
    { intros d. unfold assisted_seq. destruct (get_stop_seq u) as [|a rest]; [cbn in Hlen; lia|]. destruct rest as [|b rest]; [discriminate|]. cbn [assist_loop].
      destruct (ut_times u) as [|x [|y l]]; discriminate. }
    assert (Hp1 : NoDup ents) by (apply NoDup_map_inj; [intros x y _ _ H; injection H; auto|apply NoDup_filter, day_list_nodup]).
    assert (Hp2 : forall k d, In (k, d) ents -> 0 <= d < 512 /\ k <> []).
    { intros k d H. apply in_map_iff in H. destruct H as (d' & E & H). injection E as <- <-. apply filter_In in H. split; [apply day_list_in; apply H|apply Hne]. }
    pose proof (group_permutation seq_eqb seq_eqb_spec ents [] Hp1 Hp2) as HP.
    destruct (group_loop_spec seq_eqb seq_eqb_spec ents [] []) as (_ & HG & _); [constructor|intros k d H ->; exfalso; apply (proj2 (Hp2 _ _ H) eq_refl)|].
    set (m := group_loop seq_eqb ents [] []) in *. split.
    - intros v Hv. apply in_map_iff in Hv. destruct Hv as ((k, b) & <- & Hm). cbn. do 4 (split; [reflexivity|]). intros d Hb.
      assert (X : has m k d) by (exists b; auto). apply HG in X. destruct X as [(b' & [] & _)|X]. apply in_map_iff in X. destruct X as (d' & E & X). injection E as _ <-. apply filter_In in X. apply X.
    - unfold stamps. set (S := fun d : Z => (ut_first_dep_offset u, ut_tz_offset u, d)).
      assert (Hl : flat_map (fun v => map (fun x => (ut_first_dep_offset v, ut_tz_offset v, x)) (filter (ut_days v) day_list))
        (map (fun kb => mk_utc (ut_first_dep_offset u) (ut_tz_offset u) (ut_trips u) (ut_times u) (snd kb) (fst kb)) m)
        = map (fun kd => S (snd kd)) (flat_map (fun kb => map (pair (fst kb)) (filter (snd kb) day_list)) m)).
      { clear. induction m as [|[k b] m IH]; [reflexivity|]. cbn [map flat_map]. rewrite IH, map_app. f_equal. cbn [ut_days ut_first_dep_offset ut_tz_offset fst snd]. rewrite map_map. reflexivity. }
      rewrite Hl, HP. cbn [flat_map]. rewrite app_nil_r. unfold ents. rewrite map_map. apply Permutation_refl.
  Qed.
  Lemma made_assistance avail traffic f vs : made traffic f vs -> (forall v, In v vs -> (1 <= length (get_stop_seq v))%nat) ->
    made traffic f (flat_map (expand_assistance avail) vs).
  Proof.
    intros [M1 M2 M3 M4] Hl.
    assert (HA : forall v, In v vs -> _) by (intros v Hv; exact (assistance_stamps avail v (fun d => M2 v d Hv) (Hl v Hv))).
    split.
    - intros w Hw. apply in_flat_map in Hw. destruct Hw as (v & Hv & Hw). destruct (HA v Hv) as (A & _). destruct (A w Hw) as (-> & _). auto.
    - intros w u Hw Hu. apply in_flat_map in Hw. destruct Hw as (v & Hv & Hw). destruct (HA v Hv) as (A & _). destruct (A w Hw) as (_ & _ & _ & _ & D). apply (M2 v u Hv). auto.
    - intros w u Hw Hu. apply in_flat_map in Hw. destruct Hw as (v & Hv & Hw). destruct (HA v Hv) as (A & _). destruct (A w Hw) as (_ & -> & -> & -> & D). apply (M3 v u Hv). auto.
    - rewrite <- M4. clear M1 M2 M3 M4 Hl. induction vs as [|v vs IH]; [reflexivity|]. cbn [flat_map]. rewrite stamps_app. change (v :: vs) with ([v] ++ vs). rewrite stamps_app.
      apply Permutation_app; [apply HA; now left|apply IH; intros; apply HA; now right].
  Qed.
End Made.

(** ** Lists *)
Lemma flat_map_perm {A B} (F : A -> list B) l l' : Permutation l l' -> Permutation (flat_map F l) (flat_map F l').
Proof.
  induction 1 as [|x l l' H IH|x y l|l l' l'' H1 IH1 H2 IH2]; cbn [flat_map]; [constructor| | |etransitivity; eauto].
  - apply Permutation_app_head, IH.
  - rewrite !app_assoc. apply Permutation_app_tail, Permutation_app_comm.
Qed.
Lemma flat_map_flat_map {A B C} (F : A -> list B) (G : B -> list C) l : flat_map G (flat_map F l) = flat_map (fun x => flat_map G (F x)) l.
Proof. induction l as [|x l IH]; [reflexivity|]. cbn [flat_map]. rewrite flat_map_app, IH. reflexivity. Qed.
Lemma flat_map_map {A B C} (F : A -> B) (G : B -> list C) l : flat_map G (map F l) = flat_map (fun x => G (F x)) l.
Proof. induction l as [|x l IH]; [reflexivity|]. cbn. rewrite IH. reflexivity. Qed.
Lemma map_flat_map {A B C} (F : B -> C) (G : A -> list B) l : map F (flat_map G l) = flat_map (fun x => map F (G x)) l.
Proof. induction l as [|x l IH]; [reflexivity|]. cbn. rewrite map_app, IH. reflexivity. Qed.
Lemma flat_map_nil {A B} (l : list A) : flat_map (fun _ => @nil B) l = [].
Proof. induction l; auto. Qed.
Lemma flat_map_split {A B} (F G : A -> list B) l : Permutation (flat_map (fun x => F x ++ G x) l) (flat_map F l ++ flat_map G l).
Proof.
  induction l as [|x l IH]; [constructor|]. cbn [flat_map]. rewrite IH, <- !app_assoc. apply Permutation_app_head. rewrite !app_assoc. apply Permutation_app_tail, Permutation_app_comm.
Qed.
Lemma flat_map_swap {A B C} (F : A -> B -> list C) l m : Permutation (flat_map (fun x => flat_map (F x) m) l) (flat_map (fun y => flat_map (fun x => F x y) l) m).
Proof.
  induction l as [|x l IH].
  - cbn. rewrite flat_map_nil. constructor.
  - cbn [flat_map]. rewrite IH. symmetry. apply flat_map_split.
Qed.
Lemma flat_map_perm_ext {A B} (F G : A -> list B) l : (forall x, In x l -> Permutation (F x) (G x)) -> Permutation (flat_map F l) (flat_map G l).
Proof. induction l as [|x l IH]; intros H; [constructor|]. cbn. apply Permutation_app; [apply H; now left|apply IH; intros; apply H; now right]. Qed.
Lemma flat_map_cond {A B} (c : A -> bool) (F : A -> list B) l : flat_map (fun x => if c x then F x else []) l = flat_map F (filter c l).
Proof. induction l as [|x l IH]; [reflexivity|]. cbn. destruct (c x); cbn; rewrite IH; reflexivity. Qed.
Lemma filter_filter {A} (c d : A -> bool) l : filter c (filter d l) = filter (fun x => c x && d x) l.
Proof. induction l as [|x l IH]; [reflexivity|]. cbn. destruct (d x) eqn:D; cbn; rewrite ?D, ?andb_true_r, ?andb_false_r, IH; reflexivity. Qed.

(** ** Chains *)
Lemma chain_ranges tos : forall prev, trip_ranges prev (map fst tos) = map fst (chain_parts prev tos).
Proof. induction tos as [|(t, o) l IH]; intros prev; [reflexivity|]. cbn [map fst trip_ranges chain_parts]. rewrite IH. reflexivity. Qed.
Lemma local_times_len o evs : length (local_times o evs) = (2 * (length evs - 1))%nat.
Proof. induction evs as [|e evs IH]; auto. destruct evs as [|e' evs]; auto. cbn [local_times length] in *. rewrite IH. lia. Qed.
Lemma chain_departures tos : (forall to, In to tos -> (2 <= length (gt_events (fst to)))%nat /\ length (gt_stop_seq (fst to)) = length (gt_events (fst to))) ->
  forall before p, In p (chain_parts (length before / 2) tos) -> Nat.Even (length before) ->
    let all := before ++ flat_map (fun to => local_times (snd to) (gt_events (fst to))) tos in
    In (snd p) all /\ nth (2 * fst (snd (fst p))) all 0 = snd p /\ (2 * fst (snd (fst p)) < length all)%nat.
Proof.
  induction tos as [|(t, o) l IH]; intros Hl before p Hp Ev all; [destruct Hp|]. destruct (Hl (t, o) (or_introl eq_refl)) as (L & S). cbn [fst snd] in L, S.
  destruct Ev as (k & Ek). assert (D : (length before / 2 = k)%nat) by (rewrite Ek, Nat.mul_comm; apply Nat.div_mul; lia). rewrite D in Hp. cbn [chain_parts] in Hp. destruct Hp as [<-|Hp].
  - cbn [fst snd]. unfold all. cbn [flat_map]. rewrite app_nth2 by lia. replace (2 * k - length before)%nat with 0%nat by lia.
    destruct (gt_events t) as [|e [|e' evs]] eqn:Ee; cbn in L; try lia. unfold front_dep. rewrite Ee. cbn [fst snd]. rewrite Ee. cbn [local_times app nth]. split; [|split; [reflexivity|]].
    + apply in_or_app. right. left. reflexivity.
    + rewrite app_length. cbn [length]. lia.
  - specialize (IH (fun to H => Hl to (or_intror H)) (before ++ local_times o (gt_events t)) p).
    assert (LB : length (before ++ local_times o (gt_events t)) = (2 * (k + (length (gt_events t) - 1)))%nat) by (rewrite app_length, local_times_len; lia).
    rewrite LB in IH. rewrite (Nat.mul_comm 2), Nat.div_mul in IH by lia. replace (k + length (gt_stop_seq t) - 1)%nat with (k + (length (gt_events t) - 1))%nat in Hp by lia.
    destruct (IH Hp) as (A & B & C); [exists (k + (length (gt_events t) - 1))%nat; lia|]. unfold all. cbn [flat_map fst snd]. rewrite app_assoc. auto.
Qed.

Section Lookup.
  Context {key : Type}.
  Variable n_days : nat.
  Variable noon : Z -> Z.
  Variable sel : interval.
  Hypothesis Hnoon : forall d, -720 <= noon d <= 900 /\ noon d <> -1.

  (** The resolution of one vehicle, without its index. *)
  Definition target (date : Z) (time : option Z) (dep : Z) : option Z :=
    match time with
    | None => Some date
    | Some s => if Z.rem dep 1440 =? Z.rem s 1440 then Some (date - (Z.quot dep 1440 - Z.quot s 1440)) else None
    end.
  Definition hit (date : Z) (time : option Z) (v : utc_trip) (range : nat * nat) : list (list Z * (nat * nat)) :=
    let o := to_offset (pack_offset (ut_first_dep_offset v) (ut_tz_offset v)) in
    match target date time (nth (2 * fst range) (ut_times v) 0 + fst o * 1440 + snd o) with
    | None => []
    | Some D => if (0 <=? D + fst o) && (D + fst o <=? 512) && ut_days v (D + fst o) then [(map (fun t => (D + fst o) * 1440 + t) (ut_times v), range)] else []
    end.
  Lemma resolve_loaded vs ids routes dir date time id :
    let T := @loaded key vs ids routes dir in
    map (seen T) (resolve_trip T date time id) =
    flat_map (fun v => flat_map (fun x => hit date time v (snd x)) (filter (fun x => Nat.eqb (fst x) id) (trip_ranges 0 (ut_trips v)))) vs.
  Proof.
    intros T. unfold resolve_trip. cbn [sc_ranges loaded T]. unfold loaded_ranges. rewrite flat_map_flat_map, map_flat_map.
    assert (G : forall l k, (forall j v, nth_error l j = Some v -> vehicle_of T (k + j) = loaded_vehicle v) ->
      flat_map (fun x => map (seen T) (flat_map (fun tr => match resolve_one T date time (fst tr) (snd tr) with Some r => [r] | None => [] end)
        (map (fun y => (fst x, snd y)) (filter (fun y => Nat.eqb (fst y) id) (trip_ranges 0 (ut_trips (snd x))))))) (combine (seq k (length l)) l) =
      flat_map (fun v => flat_map (fun x => hit date time v (snd x)) (filter (fun x => Nat.eqb (fst x) id) (trip_ranges 0 (ut_trips v)))) l).
    { induction l as [|v l IH]; intros k Hk; [reflexivity|]. cbn [length seq combine flat_map fst snd]. f_equal.
      - rewrite flat_map_map, map_flat_map. apply flat_map_ext. intros (i, range). cbn [fst snd].
        pose proof (Hk 0%nat v eq_refl) as HV. rewrite Nat.add_0_r in HV. unfold resolve_one, departure. rewrite HV. unfold hit. cbn [loaded_vehicle ve_offset ve_times ve_days].
        destruct (to_offset (pack_offset (ut_first_dep_offset v) (ut_tz_offset v))) as (fo, tz). cbn [fst snd]. unfold split. unfold target. destruct time as [s|]; cbn [fst snd].
        + destruct (Z.rem (nth (2 * fst range) (ut_times v) 0 + fo * 1440 + tz) 1440 =? Z.rem s 1440) eqn:E; cbn [negb]; [|reflexivity].
          set (dd := Z.quot (nth (2 * fst range) (ut_times v) 0 + fo * 1440 + tz) 1440). replace (date + fo - (dd - Z.quot s 1440)) with (date - (dd - Z.quot s 1440) + fo) by lia.
          set (u := date - (dd - Z.quot s 1440) + fo). unfold kMaxDays, bf_test. rewrite Z.gtb_ltb. replace (512 <? u) with (negb (u <=? 512)) by (rewrite <- Z.ltb_antisym; reflexivity).
          replace (u <? 0) with (negb (0 <=? u)) by (rewrite <- Z.ltb_antisym; reflexivity).
          destruct (u <=? 512), (0 <=? u), (ut_days v u); cbn [negb orb andb map]; try reflexivity. unfold seen. cbn [fo_transport fo_day fo_range]. rewrite HV. reflexivity.
        + replace (date + fo - 0) with (date + fo) by lia.
          set (u := date + fo). unfold kMaxDays, bf_test. rewrite Z.gtb_ltb. replace (512 <? u) with (negb (u <=? 512)) by (rewrite <- Z.ltb_antisym; reflexivity).
          replace (u <? 0) with (negb (0 <=? u)) by (rewrite <- Z.ltb_antisym; reflexivity).
          destruct (u <=? 512), (0 <=? u), (ut_days v u); cbn [negb orb andb map]; try reflexivity. unfold seen. cbn [fo_transport fo_day fo_range]. rewrite HV. reflexivity.
      - apply IH. intros j w Hj. replace (S k + j)%nat with (k + S j)%nat by lia. apply Hk. exact Hj. }
    apply (G vs 0%nat). intros j v Hj. unfold vehicle_of, T, loaded. cbn [sc_vehicles]. cbn [Nat.add]. apply nth_error_nth. rewrite nth_error_map, Hj. reflexivity.
  Qed.

  Lemma filter_one (P : Z -> bool) x : filter (fun u => u =? x) (filter P day_list) = if (0 <=? x) && (x <? 512) && P x then [x] else [].
  Proof.
    rewrite filter_filter. pose proof day_list_nodup as N. pose proof (day_list_in x) as I. revert N I. generalize day_list. intros l N I.
    assert (G : forall l, NoDup l -> filter (fun u => (u =? x) && P u) l = if existsb (Z.eqb x) l && P x then [x] else []).
    { clear. induction l as [|y l IH]; intros N; [reflexivity|]. inversion N as [|? ? H N']; subst. cbn [filter existsb]. rewrite (IH N'). rewrite (Z.eqb_sym y x).
      destruct (Z.eqb_spec x y) as [->|]; cbn [andb orb]; [|reflexivity]. assert (E : existsb (Z.eqb y) l = false).
      { apply not_true_is_false. intros X. apply existsb_exists in X. destruct X as (z & Hz & X). apply Z.eqb_eq in X. subst. auto. }
      rewrite E. cbn [andb]. destruct (P y); reflexivity. }
    rewrite G by exact N. assert (E : existsb (Z.eqb x) l = (0 <=? x) && (x <? 512)).
    { apply eq_true_iff_eq. rewrite existsb_exists, andb_true_iff, Z.leb_le, Z.ltb_lt. split.
      - intros (z & Hz & X). apply Z.eqb_eq in X. subst z. apply I in Hz. exact Hz.
      - intros H. exists x. split; [apply I; exact H|apply Z.eqb_refl]. }
    rewrite E. reflexivity.
  Qed.

  Lemma chain_hits traffic f vs date time p : good_chain f -> made n_days noon sel traffic f vs -> (forall s, time = Some s -> 0 <= s) ->
    In p (chain_parts 0 (usable_trips f)) ->
    Permutation (flat_map (fun v => hit date time v (snd (fst p))) vs)
      (map (fun D => (map (fun t => D * 1440 + t - noon D) (local_schedule f), snd (fst p)))
           (filter (fun D => wanted date time (snd p) D && operates sel traffic noon (local_schedule f) D) (map Z.of_nat (seq 0 n_days)))).
  Proof.
    intros [Hoff Hinc Hmax Hne Hst] [M1 M2 M3 M4] Hs Hp. set (local := local_schedule f) in *. set (days := map Z.of_nat (seq 0 n_days)) in *.
    assert (Hl : forall to, In to (usable_trips f) -> (2 <= length (gt_events (fst to)))%nat /\ length (gt_stop_seq (fst to)) = length (gt_events (fst to))).
    { intros to Hin. split; [|auto]. unfold usable_trips in Hin. apply filter_In in Hin. destruct Hin as [_ Hu]. unfold usable in Hu. apply andb_true_iff in Hu.
      destruct Hu as [Hu _]. apply Nat.ltb_lt in Hu. lia. }
    destruct (chain_departures (usable_trips f) Hl [] p Hp) as (DI & DN & DL); [exists 0%nat; reflexivity|]. cbn [app] in DI, DN, DL. fold (local_schedule f) in DI, DN, DL. fold local in DI, DN, DL.
    set (range := snd (fst p)) in *. set (dep := snd p) in *. pose proof (increasing_ge _ _ _ Hinc DI) as D0. pose proof (Hmax _ DI) as D1.
    assert (Hfirst : 0 <= hd 0 local <= 30000).
    { assert (X : In (hd 0 local) local) by (destruct local; [destruct DI|left; reflexivity]). pose proof (increasing_ge _ _ _ Hinc X). pose proof (Hmax _ X). lia. }
    assert (Hoffb : forall D, -1 <= day_offset noon f D <= 21).
    { intros D. unfold day_offset. fold local. destruct (Hnoon D) as [Hn _]. pose proof (Z.div_mod (hd 0 local - noon D) 1440). pose proof (Z.mod_pos_bound (hd 0 local - noon D) 1440). lia. }
    (* every vehicle with a traffic day has the offsets of a service day *)
    assert (HK : forall v u, In v vs -> ut_days v u = true -> exists D, ut_first_dep_offset v = day_offset noon f D /\ ut_tz_offset v = noon D).
    { intros v u Hv Hu. assert (X : In (ut_first_dep_offset v, ut_tz_offset v, u) (stamps vs)).
      { unfold stamps. apply in_flat_map. exists v. split; [exact Hv|]. apply in_map_iff. exists u. split; [reflexivity|]. apply filter_In. split; [apply day_list_in; exact (M2 v u Hv Hu)|exact Hu]. }
      rewrite M4 in X. apply in_map_iff in X. destruct X as (D & X & _). injection X as X1 X2 _. exists D. auto. }
    set (emit := fun (D : Z) (st : Z * Z * Z) => if snd st =? D + fst (fst st) then [(map (fun t => D * 1440 + t - snd (fst st)) local, range)] else []).
    assert (HH : flat_map (fun v => hit date time v range) vs = match target date time dep with None => [] | Some D => flat_map (emit D) (stamps vs) end).
    { assert (HV : forall v, In v vs -> hit date time v range = match target date time dep with None => [] | Some D =>
        flat_map (emit D) (map (fun u => (ut_first_dep_offset v, ut_tz_offset v, u)) (filter (ut_days v) day_list)) end).
      { intros v Hv.
        destruct (existsb (ut_days v) day_list) eqn:Ex.
        - apply existsb_exists in Ex. destruct Ex as (u0 & _ & Hu0). destruct (HK v u0 Hv Hu0) as (D & K1 & K2).
          pose proof (M3 v u0 Hv Hu0) as HT. unfold hit. destruct (Hnoon D) as [Hn _]. specialize (Hoffb D). rewrite <- K1 in Hoffb. rewrite <- K2 in Hn.
          assert (TO : to_offset (pack_offset (ut_first_dep_offset v) (ut_tz_offset v)) = (ut_first_dep_offset v, ut_tz_offset v)).
          { unfold to_offset, pack_offset. cbn [fst snd]. rewrite !Z.mod_small by lia. f_equal; lia. }
          rewrite TO. cbn [fst snd]. rewrite HT.
          assert (DD : nth (2 * fst range) (map (fun t => t - (ut_tz_offset v + ut_first_dep_offset v * 1440)) local) 0 = dep - (ut_tz_offset v + ut_first_dep_offset v * 1440)).
          { rewrite (nth_indep _ 0 (0 - (ut_tz_offset v + ut_first_dep_offset v * 1440))) by (rewrite map_length; exact DL).
            rewrite (map_nth (fun t => t - (ut_tz_offset v + ut_first_dep_offset v * 1440))). rewrite DN. reflexivity. }
          rewrite DD. replace (dep - (ut_tz_offset v + ut_first_dep_offset v * 1440) + ut_first_dep_offset v * 1440 + ut_tz_offset v) with dep by lia.
          destruct (target date time dep) as [X|]; [|reflexivity]. set (x := X + ut_first_dep_offset v).
          rewrite flat_map_map. unfold emit. cbn [fst snd]. fold x. rewrite (flat_map_cond (fun u => u =? x)). rewrite filter_one.
          assert (EQ : (0 <=? x) && (x <=? 512) && ut_days v x = (0 <=? x) && (x <? 512) && ut_days v x).
          { destruct (ut_days v x) eqn:Hx; [|rewrite !andb_false_r; reflexivity]. pose proof (M2 v x Hv Hx).
            rewrite (proj2 (Z.leb_le x 512)) by lia. rewrite (proj2 (Z.ltb_lt x 512)) by lia. reflexivity. }
          rewrite EQ. destruct ((0 <=? x) && (x <? 512) && ut_days v x); [|reflexivity]. cbn [flat_map app]. rewrite map_map. do 2 f_equal. apply map_ext. intros t. unfold x. lia.
        - assert (F : filter (ut_days v) day_list = []).
          { destruct (filter (ut_days v) day_list) as [|u l] eqn:F; [reflexivity|]. exfalso. assert (I : In u (filter (ut_days v) day_list)) by (rewrite F; left; reflexivity).
            apply filter_In in I. destruct I as (I1 & I2). assert (existsb (ut_days v) day_list = true) by (apply existsb_exists; eauto). congruence. }
          rewrite F. cbn [map flat_map]. transitivity (@nil (list Z * (nat * nat))); [|destruct (target date time dep); reflexivity].
          unfold hit. destruct (target date time _) as [X|]; [|reflexivity]. set (o := to_offset _). destruct (ut_days v (X + fst o)) eqn:Hu; [|rewrite andb_false_r; reflexivity].
          exfalso. assert (existsb (ut_days v) day_list = true); [|congruence]. apply existsb_exists. exists (X + fst o). split; [apply day_list_in; exact (M2 v _ Hv Hu)|exact Hu]. }
      clear -HV. unfold stamps. induction vs as [|v vs IH]; [cbn; destruct (target date time dep); reflexivity|]. cbn [flat_map]. rewrite (HV v (or_introl eq_refl)). rewrite IH by (intros w Hw; apply HV; now right).
      destruct (target date time dep); [|reflexivity]. rewrite flat_map_app. reflexivity. }
    rewrite HH. clear HH HK.
    assert (HW : forall D, wanted date time dep D = match target date time dep with None => false | Some X => D =? X end).
    { intros D. unfold wanted, target. destruct time as [s|]; [|reflexivity]. pose proof (Hs s eq_refl) as S0.
      rewrite !Z.rem_mod_nonneg, !Z.quot_div_nonneg by lia. pose proof (Z.div_mod dep 1440) as E1. pose proof (Z.div_mod s 1440) as E2.
      pose proof (Z.mod_pos_bound dep 1440) as B1. pose proof (Z.mod_pos_bound s 1440) as B2.
      destruct (Z.eqb_spec (dep mod 1440) (s mod 1440)) as [Em|Em].
      - destruct (Z.eqb_spec (D * 1440 + dep) (date * 1440 + s)); destruct (Z.eqb_spec D (date - (dep / 1440 - s / 1440))); lia.
      - apply Z.eqb_neq. lia. }
    destruct (target date time dep) as [X|].
    - rewrite (flat_map_perm _ _ _ M4). rewrite flat_map_map. apply Permutation_refl'. unfold emit. cbn [fst snd].
      rewrite <- (filter_filter (wanted date time dep)). clear -HW. induction (filter (operates sel traffic noon local) days) as [|D l IH]; [reflexivity|].
      cbn [flat_map filter]. rewrite IH, HW. destruct (Z.eqb_spec D X) as [->|ND].
      + rewrite Z.eqb_refl. reflexivity.
      + destruct (Z.eqb_spec (D + day_offset noon f D) (X + day_offset noon f D)); [lia|reflexivity].
    - assert (E : filter (fun D => wanted date time dep D && operates sel traffic noon local D) days = []).
      { rewrite (filter_ext _ (fun _ => false)); [clear; induction days; auto|]. intros D. rewrite HW. reflexivity. }
      rewrite E. constructor.
  Qed.
End Lookup.
