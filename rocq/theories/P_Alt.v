(** C62: alternatives to a ride of a journey (leg_alternatives.cc); C63: interior rides replaced by the earliest alternative
    (pong.cc:435-475). *)
From Coq Require Import List ZArith Bool Arith Lia Sorting.Sorted.
From Verif Require Import Base Time_Model Raptor_Model Raptor_Spec Raptor_Base Raptor_Sound Rec_Model Rec_Spec Rec_Proofs Rec_Opt Direct_Model Direct_Spec
  Direct_Proofs Direct_Stream Direct_Order P_Direct Alt_Model Alt_Spec Alt_Proofs Alt_Search.
From Verif Require Query_Model P_Raptor.
Import ListNotations.
Local Open Scope Z_scope.

(** ** The way between two rides in exact mode is a transfer. *)
Lemma exact_access P L DQ front p loc o d : mode_of DQ front = Query_Model.kExact -> offsets_of DQ front = [(p, 0)] -> access P L DQ front loc o d ->
  o = p /\ ((loc = p /\ d = transfer_time P p) \/ exists d1, In (loc, d1) (if front then tt_footpaths_out (p_tt P) p else tt_footpaths_in (p_tt P) p) /\ d = p_adjust P d1).
Proof.
  intros M O A. destruct A as [d Hm Hin|o d Hm Hin Hl Hn|o d Hin Hm Hl|o d l d1 Hm Hin Hl Hu Hfp]; try congruence; rewrite O in Hin; destruct Hin as [Hin|[]];
    injection Hin as <- <-; (split; [reflexivity|]).
  - left. rewrite Hl. split; [reflexivity|lia].
  - right. rewrite M in Hl. cbn in Hl. destruct Hl as [<-|[]]. exists d1. split; [exact Hfp|lia].
Qed.
Lemma exact_front P L DQ p loc t pre : mode_of DQ true = Query_Model.kExact -> offsets_of DQ true = [(p, 0)] -> side_legs P L DQ true loc t pre ->
  exists w, pre = [w] /\ change_leg P w /\ l_from w = p /\ l_to w = loc /\ l_arr w = t.
Proof.
  intros M O H. destruct H as [o M' _|g o d A E1 E2 E3 E4 U]; [congruence|]. exists g. split; [reflexivity|].
  cbn [outer_loc inner_loc inner_time outer_time] in *. rewrite M in U. destruct (exact_access _ _ _ _ _ _ _ _ M O A) as (-> & X).
  split; [|auto]. split; [eauto|]. exists d. rewrite E1, E2. split; [|lia].
  destruct X as [(-> & ->)|(d1 & X1 & ->)]; [left; auto|right; exists d1; auto].
Qed.
Lemma exact_back P L DQ p loc t post : footpaths_both_ways P -> mode_of DQ false = Query_Model.kExact -> offsets_of DQ false = [(p, 0)] -> side_legs P L DQ false loc t post ->
  exists w, post = [w] /\ change_leg P w /\ l_from w = loc /\ l_to w = p /\ l_dep w = t.
Proof.
  intros HS M O H. destruct H as [o M' _|g o d A E1 E2 E3 E4 U]; [congruence|]. exists g. split; [reflexivity|].
  cbn [outer_loc inner_loc inner_time outer_time] in *. rewrite M in U. destruct (exact_access _ _ _ _ _ _ _ _ M O A) as (-> & X).
  split; [|auto]. split; [eauto|]. exists d. rewrite E1, E2. split; [|lia].
  destruct X as [(-> & ->)|(d1 & X1 & ->)]; [left; auto|right; exists d1; split; [now apply HS|reflexivity]].
Qed.

(** * C62 *)
(** Every alternative is a valid ride other than the original one, reached from the ride before by a transfer that begins after the arrival
    of that ride, and connected to the ride after it by a transfer that ends before the departure of that ride.  The first ride of a
    journey is reached from the query's start, the last one leads to its destination.  The alternative to the only ride of a journey
    departs no earlier than the journey. *)
Theorem C62_alternatives_fit : forall P L Q lo hi pl sched j i n out g0 alt,
  all_vehicles_wf P -> no_flags_required P -> settings_monotone P -> footpaths_both_ways P ->
  (forall a l d, In (l, d) (tt_footpaths_out (p_tt P) a) -> 0 <= d) -> ends_ok L Q true -> ends_ok L Q false ->
  leg_alternatives P L Q lo hi pl sched j i n out -> nth_error j i = Some g0 -> In alt out ->
  exists pre g post, alt = pre ++ g :: post /\ ride_leg P g /\ l_uses g <> l_uses g0 /\
    (forall p, ride_before j i p -> reached_from P p pre g) /\
    (no_ride_before j i -> side_legs P L Q true (l_from g) (l_dep g) pre) /\
    (forall x, ride_after j i x -> leads_to P g post x) /\
    (no_ride_after j i -> side_legs P L Q false (l_to g) (l_arr g) post) /\
    (no_ride_before j i -> no_ride_after j i -> l_dep (hd no_leg j) <= j_dep alt).
Proof.
  intros P L Q lo hi pl sched j i n out g0 alt Hwf Hreq Hmono HS Hfp Q1 Q2 H Hg0 Ha.
  assert (Hi : (i <= length j)%nat) by (assert (i < length j)%nat by (apply nth_error_Some; congruence); lia).
  unfold leg_alternatives in H. rewrite Hg0 in H.
  destruct (Nat.eqb n 0 || negb (is_transit g0)) eqn:C; [subst out; destruct Ha|].
  apply orb_false_iff in C. destruct C as (_ & C). apply negb_false_iff, is_transit_spec in C.
  assert (Ho : is_ride (mk_leg 0 0 0 0 (l_uses g0))) by exact C. cbv zeta in H.
  assert (X : exists b anchor maxarr, alternatives_of P L lo hi pl sched (direct_query Q (prev_transit j i) (next_transit j i)) b anchor maxarr (l_uses g0) n out /\
     (b = false -> prev_transit j i = None /\ exists x, next_transit j i = Some x /\ anchor = l_dep x) /\
     (b = true -> anchor = match prev_transit j i with Some p => l_arr p | None => l_dep (hd no_leg j) end /\
                  maxarr = match next_transit j i with Some x => Some (l_dep x) | None => None end)).
  { destruct (prev_transit j i) as [p|], (next_transit j i) as [x|]; eexists _, _, _; (split; [exact H|]); split; try discriminate; auto; intros _; split; eauto. }
  clear H. destruct X as (b & anchor & maxarr & H & Xf & Xt).
  set (DQ := direct_query Q (prev_transit j i) (next_transit j i)) in *.
  assert (E1 : ends_ok L DQ true).
  { unfold DQ, direct_query. destruct (prev_transit j i) as [p|]; [|exact Q1]. right. split; [|auto].
    cbn. intros o d [HH|[]]. injection HH as <- <-. auto. }
  assert (E2 : ends_ok L DQ false).
  { unfold DQ, direct_query. destruct (next_transit j i) as [p|]; [|destruct Q2 as [Q2|(Q2 & _)]; [left; exact Q2|right; split; [exact Q2|discriminate]]]. right. split; [|discriminate].
    cbn. intros o d [HH|[]]. injection HH as <- <-. auto. }
  destruct (alternatives_sound P L Hwf Hreq lo hi pl sched Hmono Hfp DQ b anchor maxarr (l_uses g0) n out alt E1 E2 Ho H Ha) as (D & NO & T).
  destruct D as [pre g post G S1 S2].
  exists pre, g, post. split; [reflexivity|]. split; [exact G|]. split; [apply NO; apply in_or_app; right; now left|].
  unfold j_dep, j_arr in T. unfold j_dep. rewrite hd_app in *. rewrite last_app_cons in T.
  split; [|split; [|split; [|split]]].
  - intros p Hp. apply prev_spec in Hp; [|exact Hi]. destruct b; [|destruct (Xf eq_refl) as (Y & _); congruence].
    destruct (Xt eq_refl) as (Y1 & _). rewrite Hp in Y1. subst anchor. destruct T as (T & _).
    assert (M : mode_of DQ true = Query_Model.kExact) by (unfold DQ, direct_query; rewrite Hp; reflexivity).
    assert (O : offsets_of DQ true = [(l_to p, 0)]) by (unfold DQ, direct_query; rewrite Hp; reflexivity).
    destruct (exact_front _ _ _ _ _ _ _ M O S1) as (w & -> & W1 & W2 & W3 & W4). exists w. cbn [hd] in T. auto 10.
  - intros Hp. apply prev_none in Hp; [|exact Hi]. clear - S1 Hp. unfold DQ, direct_query in S1. rewrite Hp in S1.
    destruct S1 as [o M A|w o d A B1 B2 B3 B4 B5].
    + eapply side_none; [exact M|]. inversion A; subst; try congruence; try (cbn in *; congruence). apply access_offset; auto.
    + eapply side_walk; eauto. clear - A. destruct A; [apply access_offset|apply access_here|apply access_exact|eapply access_walk]; eauto.
  - intros x Hx. apply next_spec in Hx.
    assert (M : mode_of DQ false = Query_Model.kExact) by (unfold DQ, direct_query; rewrite Hx; reflexivity).
    assert (O : offsets_of DQ false = [(l_from x, 0)]) by (unfold DQ, direct_query; rewrite Hx; reflexivity).
    destruct (exact_back _ _ _ _ _ _ _ HS M O S2) as (w & -> & W1 & W2 & W3 & W4). exists w. cbn [last] in T.
    assert (l_arr w <= l_dep x); [|auto 10]. destruct b.
    + destruct (Xt eq_refl) as (_ & Y2). rewrite Hx in Y2. destruct T as (_ & T). exact (T _ Y2).
    + destruct (Xf eq_refl) as (_ & x' & Y1 & Y2). rewrite Hx in Y1. injection Y1 as <-. lia.
  - intros Hx. apply next_none in Hx. clear - S2 Hx. unfold DQ, direct_query in S2. rewrite Hx in S2.
    destruct S2 as [o M A|w o d A B1 B2 B3 B4 B5].
    + eapply side_none; [exact M|]. inversion A; subst; try congruence; try (cbn in *; congruence). apply access_offset; auto.
    + eapply side_walk; eauto. clear - A. destruct A; [apply access_offset|apply access_here|apply access_exact|eapply access_walk]; eauto; discriminate.
  - intros Hp Hx. apply prev_none in Hp; [|exact Hi]. apply next_none in Hx. destruct b; [|destruct (Xf eq_refl) as (_ & x & Y & _); congruence].
    destruct (Xt eq_refl) as (Y1 & _). rewrite Hp in Y1. subst anchor. apply T.
Qed.

(** No more alternatives than asked for; none for legs that are not rides. *)
Theorem C62_number : forall P L Q lo hi pl sched j i n out, leg_alternatives P L Q lo hi pl sched j i n out ->
  (length out <= n)%nat /\ ((forall g, nth_error j i = Some g -> ~ is_ride g) -> out = []).
Proof.
  intros P L Q lo hi pl sched j i n out H. unfold leg_alternatives in H.
  destruct (nth_error j i) as [g|]; [|subst out; split; [cbn; lia|reflexivity]].
  destruct (Nat.eqb n 0 || negb (is_transit g)) eqn:C; [subst out; split; [cbn; lia|reflexivity]|].
  apply orb_false_iff in C. destruct C as (_ & C). apply negb_false_iff, is_transit_spec in C. cbv zeta in H.
  split; [|intros N; destruct (N _ eq_refl C)].
  assert (X : forall DQ b anchor m o, alternatives_of P L lo hi pl sched DQ b anchor m o n out -> (length out <= n)%nat).
  { intros DQ b anchor m o (stream & _ & ->). rewrite firstn_length. lia. }
  destruct (prev_transit j i), (next_transit j i); eapply X; exact H.
Qed.

Lemma rides_replace P n A p f g0 f' x B w g w' : rides P n (A ++ p :: f :: g0 :: f' :: x :: B) -> is_ride p ->
  ride_leg P g -> change_leg P w -> l_to p = l_from w -> l_arr p <= l_dep w -> l_to w = l_from g -> l_arr w <= l_dep g ->
  change_leg P w' -> l_to g = l_from w' -> l_arr g <= l_dep w' -> l_to w' = l_from x -> l_arr w' <= l_dep x ->
  rides P n (A ++ p :: w :: g :: w' :: x :: B).
Proof.
  intros H Hp G W1 W2 W3 W4 W5 V1 V2 V3 V4 V5. remember (A ++ p :: f :: g0 :: f' :: x :: B) as ls eqn:E. revert A E.
  induction H as [h Hh|n h f0 h' ls Hh Hf H1 H2 H3 H4 Hr IH]; intros A E.
  - destruct A as [|a [|a' A]]; discriminate.
  - destruct A as [|a [|a' A]]; cbn [app] in E.
    + injection E as -> -> -> ->. inversion Hr as [|n' g1 f1 h1 ls1 I1 I2 I3 I4 I5 I6 I7]; subst.
      apply rides_more; auto. apply rides_more; auto.
    + injection E as -> -> -> ->. destruct Hf as ((t & d & U) & _). destruct Hp as (? & ? & ? & ? & ? & Hp). congruence.
    + injection E as -> -> E. specialize (IH A E). cbn [app]. destruct A as [|b A]; cbn [app] in *; injection E as E1 E2; subst; apply rides_more; auto.
Qed.
Lemma rides_is_ride P g : ride_leg P g -> is_ride g.
Proof. intros [ri vi day from to r v st st' U]. exists ri, vi, day, from, to. exact U. Qed.
Lemma change_not_ride P f : change_leg P f -> ~ is_ride f.
Proof. intros ((t & d & U) & _) (? & ? & ? & ? & ? & E). congruence. Qed.

(** Putting an alternative into the journey in place of an interior ride and the transfers around it gives a valid sequence of rides again. *)
Theorem C62_interior_replacement : forall P L Q lo hi pl sched front A p f g0 f' x B back n k out alt,
  all_vehicles_wf P -> no_flags_required P -> settings_monotone P -> footpaths_both_ways P ->
  (forall a l d, In (l, d) (tt_footpaths_out (p_tt P) a) -> 0 <= d) -> ends_ok L Q true -> ends_ok L Q false ->
  rides P k (A ++ p :: f :: g0 :: f' :: x :: B) -> is_ride p -> is_ride x -> ~ is_ride f -> ~ is_ride f' ->
  leg_alternatives P L Q lo hi pl sched (front ++ (A ++ p :: f :: g0 :: f' :: x :: B) ++ back) (length front + length A + 2) n out -> In alt out ->
  rides P k (A ++ p :: alt ++ x :: B).
Proof.
  intros P L Q lo hi pl sched front A p f g0 f' x B back n k out alt Hwf Hreq Hmono HS Hfp Q1 Q2 R Hp Hx Hf Hf' H Ha.
  set (j := front ++ (A ++ p :: f :: g0 :: f' :: x :: B) ++ back) in *. set (i := (length front + length A + 2)%nat) in *.
  assert (N : forall m, nth_error j (length front + length A + m) = nth_error ((p :: f :: g0 :: f' :: x :: B) ++ back) m).
  { intros m. unfold j. rewrite nth_error_app2 by lia. replace (length front + length A + m - length front)%nat with (length A + m)%nat by lia.
    rewrite <- app_assoc, nth_error_app2 by lia. f_equal. lia. }
  assert (Hb : ride_before j i p).
  { exists (length front + length A + 0)%nat. split; [unfold i; lia|]. rewrite N. split; [reflexivity|]. split; [exact Hp|].
    intros m h Hm Hh. assert (E : m = (length front + length A + 1)%nat) by (unfold i in Hm; lia). rewrite E, N in Hh. cbn in Hh. congruence. }
  assert (Hn : ride_after j i x).
  { exists (length front + length A + 4)%nat. split; [unfold i; lia|]. rewrite N. split; [reflexivity|]. split; [exact Hx|].
    intros m h Hm Hh. assert (E : m = (length front + length A + 3)%nat) by (unfold i in Hm; lia). rewrite E, N in Hh. cbn in Hh. congruence. }
  destruct (C62_alternatives_fit P L Q lo hi pl sched j i n out g0 alt Hwf Hreq Hmono HS Hfp Q1 Q2 H) as (pre & g & post & -> & G & _ & X1 & _ & X2 & _); [|exact Ha|].
  { unfold i. rewrite N. reflexivity. }
  destruct (X1 p Hb) as (w & -> & W1 & W2 & W3 & W4 & W5). destruct (X2 x Hn) as (w' & -> & V1 & V2 & V3 & V4 & V5).
  cbn [app]. apply (rides_replace P k A p f g0 f' x B w g w'); auto; lia.
Qed.

(** If fewer alternatives are returned than asked for, every other vehicle is among them that can be reached from the ride before, in
    time for the ride after; the vehicle can be boarded and left at one stop each. *)
Theorem C62_complete : forall P L Q lo hi pl sched j i n out ro vo dayo a0 b0 g0 p x ri r vi v day s s' st st' d1 d2,
  all_vehicles_wf P -> no_flags_required P -> settings_monotone P -> index_ok P -> all_durations_ok P -> footpaths_both_ways P ->
  columns_sorted P -> fifo (with_dir true P) -> 0 <= p_base P * 1440 + l_arr p ->
  leg_alternatives P L Q lo hi pl sched j i n out -> (length out < n)%nat ->
  nth_error j i = Some g0 -> l_uses g0 = Ride ro vo dayo a0 b0 -> ride_before j i p -> ride_after j i x ->
  nth_error (tt_routes (p_tt P)) ri = Some r -> nth_error (r_vehicles r) vi = Some v -> runs_on v day ->
  (s < s')%nat -> nth_error (r_stops r) s = Some st -> nth_error (r_stops r) s' = Some st' -> s_in st = true -> s_out st' = true ->
  change_time P (l_to p) (Z.to_nat (s_loc st)) d1 -> change_time P (Z.to_nat (s_loc st')) (l_from x) d2 -> d1 < 511 -> d2 < 511 ->
  (forall y sy d, nth_error (r_stops r) y = Some sy -> s_in sy = true -> change_time P (l_to p) (Z.to_nat (s_loc sy)) d -> y = s) ->
  (forall y sy d, nth_error (r_stops r) y = Some sy -> s_out sy = true -> change_time P (Z.to_nat (s_loc sy)) (l_from x) d -> y = s') ->
  p_allowed_clasz P (r_clasz r) = true ->
  l_arr p + d1 <= event_time P v day s kDep -> event_time P v day s' kArr + d2 <= l_dep x ->
  (r_rt r = None -> day + d_days (v_ev v s kDep) <= hi) ->
  key_eqb (sched ri vi day) (sched ro vo dayo) = false ->
  exists alt g a b, In alt out /\ In g alt /\ l_uses g = Ride ri vi day a b /\
    event_time P v day s kDep - d1 <= j_dep alt /\ j_arr alt <= event_time P v day s' kArr + d2.
Proof.
  intros P L Q lo hi pl sched j i n out ro vo dayo a0 b0 g0 p x ri r vi v day s s' st st' d1 d2
    Hwf Hreq Hmono Hidx Hdur HS Hcol Hfifo Hbase H Hlen Hg0 Ug0 Hp Hx Hr Hv Hrun Hss Hst Hst' Hin Hout C1 C2 L1 L2 UB UA Hcl T1 T2 Hday HK.
  assert (Hi : (i <= length j)%nat) by (assert (i < length j)%nat by (apply nth_error_Some; congruence); lia).
  unfold leg_alternatives in H. rewrite Hg0 in H.
  assert (Tr : is_transit g0 = true) by (unfold is_transit; rewrite Ug0; reflexivity). rewrite Tr in H.
  replace (Nat.eqb n 0) with false in H by (symmetry; apply Nat.eqb_neq; lia). cbn [orb negb] in H. cbv zeta in H.
  apply prev_spec in Hp; [|exact Hi]. apply next_spec in Hx. rewrite Hp, Hx, Ug0 in H.
  set (DQ := direct_query Q (Some p) (Some x)) in *.
  assert (Hfp : forall a l d, In (l, d) (tt_footpaths_out (p_tt P) a) -> 0 <= d) by apply Hdur.
  assert (E1 : ends_ok L DQ true) by (right; split; [intros o d [HH|[]]; injection HH as <- <-; split; [reflexivity|now left]|auto]).
  assert (E2 : ends_ok L DQ false) by (right; split; [intros o d [HH|[]]; injection HH as <- <-; split; [reflexivity|now left]|auto]).
  destruct (alternatives_complete P L Hwf Hreq lo hi pl sched Hmono Hfp DQ true (l_arr p) (Some (l_dep x)) ro vo dayo a0 b0 n out E1 E2 Hcol Hfifo H Hlen) as (stream & M & K).
  assert (AF : forall loc d, change_time P (l_to p) loc d -> access (with_dir true P) L DQ true loc (l_to p) d).
  { intros loc d [(<- & ->)|(d0 & Hd0 & ->)].
    - replace (transfer_time P (l_to p)) with (0 + transfer_time (with_dir true P) (l_to p)) by (cbn; reflexivity).
      apply access_exact; [now left|reflexivity|reflexivity].
    - apply (access_walk (with_dir true P) L DQ true loc (l_to p) 0 (l_to p) d0); auto; [discriminate|now left|now left]. }
  assert (AB : forall loc d, change_time P loc (l_from x) d -> access (with_dir true P) L DQ false loc (l_from x) d).
  { intros loc d [(-> & ->)|(d0 & Hd0 & ->)].
    - replace (transfer_time P (l_from x)) with (0 + transfer_time (with_dir true P) (l_from x)) by (cbn; reflexivity).
      apply access_exact; [now left|reflexivity|reflexivity].
    - apply (access_walk (with_dir true P) L DQ false loc (l_from x) 0 (l_from x) d0); [discriminate|now left|now left|discriminate|now apply HS]. }
  assert (FA : forall loc o d, access (with_dir true P) L DQ true loc o d -> exists d', change_time P (l_to p) loc d').
  { intros loc o d A. apply access_dir in A. destruct (exact_access P L DQ true (l_to p) loc o d eq_refl eq_refl A) as (_ & [(-> & _)|(d0 & A1 & _)]).
    - eexists. left. split; reflexivity.
    - eexists. right. exists d0. split; [exact A1|reflexivity]. }
  assert (BA : forall loc o d, access (with_dir true P) L DQ false loc o d -> exists d', change_time P loc (l_from x) d').
  { intros loc o d A. apply access_dir in A. destruct (exact_access P L DQ false (l_from x) loc o d eq_refl eq_refl A) as (_ & [(-> & _)|(d0 & A1 & _)]).
    - eexists. left. split; reflexivity.
    - eexists. right. exists d0. split; [now apply HS|reflexivity]. }
  assert (MB : forall sy, may_board (with_dir true P) sy = s_in sy) by (intros sy; unfold may_board, wheelchair; cbn; rewrite Hreq by lia; reflexivity).
  assert (MA : forall sy, may_alight (with_dir true P) sy = s_out sy) by (intros sy; unfold may_alight, wheelchair; cbn; rewrite Hreq by lia; reflexivity).
  destruct (C60_complete_simple_route (with_dir true P) L DQ lo hi (l_arr p) stream ri r vi v day s s' st st' (l_to p) d1 (l_from x) d2) as (y & Y1 & Y2 & Y3 & Y4); auto.
  - split; [|cbn; lia]. intros o d [HH|[]]. injection HH as <- <-. lia.
  - split; [|cbn; lia]. intros o d [HH|[]]. injection HH as <- <-. lia.
  - rewrite MB. exact Hin.
  - rewrite MA. exact Hout.
  - right. exact L1.
  - right. exact L2.
  - intros y (sy & o & d & Y1 & Y2 & Y3). rewrite MB in Y2. destruct (FA _ _ _ Y3) as (d' & Y4). eauto.
  - intros y (sy & o & d & Y1 & Y2 & Y3). rewrite MA in Y2. destruct (BA _ _ _ Y3) as (d' & Y4). eauto.
  - split; [exact Hcl|]. intros f sec Hf Hq. cbn in Hq. rewrite Hreq in Hq by auto. discriminate.
  - change (l_arr p <= event_time P v day s kDep - d1). lia.
  - change (event_time (with_dir true P)) with (event_time P) in *. destruct Y2 as (g & Hg & Ug).
    destruct (K y Y1) with (g := g) (ri := ri) (vi := vi) (day := day) (s := s) (t := (s' + 1)%nat) as (alt & g' & a' & b' & Z1 & Z2 & Z3 & Z4 & Z5); auto.
    { intros _ m HH. injection HH as <-. lia. }
    exists alt, g', a', b'. do 3 (split; [auto|]). lia.
Qed.

(** * C63 *)
Lemma ride_end_spec P g from arr : all_vehicles_wf P -> ride_leg P g -> ride_end P (l_uses g) = Some (from, arr) -> from = l_to g /\ arr = l_arr g.
Proof.
  intros Hwf [ri vi day a b r v st st' U Hr Hv Hrun Hlt Hs Hs' Ef Et Hb Ha Hc Hfl Ed Ea] H. rewrite U in H. cbn [ride_end] in H.
  rewrite (route_of_nth P _ _ Hr) in H. rewrite (run_time_event P Hwf ri r vi v) in H; auto.
  - injection H as <- <-. split; [|auto]. unfold loc_at, stop_at. now rewrite (nth_error_nth _ _ _ Hs').
  - apply nth_error_Some. congruence.
Qed.
Lemma ride_begin_spec P g to dep : all_vehicles_wf P -> ride_leg P g -> ride_begin P (l_uses g) = Some (to, dep) -> to = l_from g /\ dep = l_dep g.
Proof.
  intros Hwf [ri vi day a b r v st st' U Hr Hv Hrun Hlt Hs Hs' Ef Et Hb Ha Hc Hfl Ed Ea] H. rewrite U in H. cbn [ride_begin] in H.
  rewrite (route_of_nth P _ _ Hr) in H. rewrite (run_time_event P Hwf ri r vi v) in H; auto.
  - injection H as <- <-. split; [|auto]. unfold loc_at, stop_at. now rewrite (nth_error_nth _ _ _ Hs).
  - apply nth_error_Some. congruence.
Qed.
Lemma earliest_spec P L Q lo hi from to arr dep res : all_vehicles_wf P -> footpaths_both_ways P -> earliest_alternative P L Q lo hi from to arr dep res ->
  res = Some None \/ exists w g w', res = Some (Some (w, g, w')) /\ ride_leg P g /\ change_leg P w /\ l_from w = from /\ l_dep w = arr /\ l_to w = l_from g /\ l_arr w <= l_dep g /\
    change_leg P w' /\ l_from w' = l_to g /\ l_dep w' = l_arr g /\ l_to w' = to /\ l_arr w' <= dep.
Proof.
  intros Hwf HS H. destruct H as [M|j stream M T|j stream M T]; [now left|now left|right].
  destruct (C60_sound (with_dir true P) L (alternative_query Q from to) lo hi arr (j :: stream) j (wf_dir true P Hwf) M (or_introl eq_refl)) as (D & TT).
  apply direct_dir in D. destruct D as [pre g post G S1 S2]. unfold j_dep, j_arr in *. rewrite hd_app in TT. rewrite last_app_cons in T.
  destruct (exact_front P L (alternative_query Q from to) from _ _ _ eq_refl eq_refl S1) as (w & -> & W1 & W2 & W3 & W4).
  destruct (exact_back P L (alternative_query Q from to) to _ _ _ HS eq_refl eq_refl S2) as (w' & -> & V1 & V2 & V3 & V4).
  cbn [hd last app] in *. change (p_fwd (with_dir true P)) with true in TT. cbv iota in TT.
  exists (mk_leg (l_from w) (l_to w) arr (arr + (l_arr w - l_dep w)) (l_uses w)), g, w'. split; [reflexivity|]. split; [exact G|].
  split. { destruct W1 as (U & d & X1 & X2). split; [exact U|]. exists d. cbn. split; [exact X1|lia]. }
  cbn [l_from l_to l_dep l_arr]. do 3 (split; [auto|]). split; [lia|]. auto 10.
Qed.

Lemma rides_length P n ls : rides P n ls -> (1 <= length ls)%nat.
Proof. intros H. inversion H; cbn; lia. Qed.

Section Improve.
  Variable P : params.
  Variable L : Query_Model.locations.
  Variable Q : dquery.
  Variables lo hi : Z.
  Hypothesis Hwf : all_vehicles_wf P.
  Hypothesis HS : footpaths_both_ways P.

  Lemma improved_rides legs res : improved P L Q lo hi legs res -> forall pre mid post n, legs = pre ++ mid ++ post ->
    (forall g, In g pre -> ~ is_ride g) -> (forall g, In g post -> ~ is_ride g) -> mid = [] \/ rides P n mid ->
    exists mid', res = Some (pre ++ mid' ++ post) /\ length mid' = length mid /\ (mid = [] \/ rides P n mid') /\
      l_from (first_leg mid') = l_from (first_leg mid) /\ l_dep (first_leg mid') = l_dep (first_leg mid) /\
      l_to (last_leg mid') = l_to (last_leg mid) /\ l_arr (last_leg mid') = l_arr (last_leg mid).
  Proof.
    induction 1 as [j Hj|a t1 b t2 c rest out C I IH|a t1 b t2 c rest from arr to dep out Hb Ha Hc HE I IH
      |a t1 b t2 c rest from arr to dep t1' b' t2' out Hb Ha Hc HE I IH|a t1 b t2 c rest from arr to dep Hb Ha Hc HE];
      intros pre mid post n E Hpre Hpost R.
    - subst j. exists mid. auto 10.
    - (* skip *)
      destruct pre as [|x pre].
      + destruct R as [->|R].
        * cbn [app] in E. destruct post as [|x post]; [discriminate|]. cbn [app] in E. injection E as <- E.
          destruct (IH [] [] post n) as (mid' & -> & Lm & _); [exact E|intros g []|intros g Hg; apply Hpost; now right|now left|].
          destruct mid'; [|discriminate]. exists []. auto 10.
        * inversion R as [g Hg E0 E1|n' g f h ls Hg Hf H1 H2 H3 H4 R' E0 E1]; subst; cbn [app] in E.
          -- injection E as <- E. destruct (IH [] [] post 1%nat) as (mid' & -> & Lm & _); [exact E|intros g []|exact Hpost|now left|].
             destruct mid'; [|discriminate]. exists [a]. cbn. auto 10.
          -- injection E as <- <- <- E. destruct (IH [t1] (b :: ls) post n') as (mid' & -> & Lm & R'' & F1 & F2 & F3 & F4); [cbn; now rewrite E| |exact Hpost|now right|].
             { intros g [<-|[]]. exact (change_not_ride P _ Hf). }
             destruct R'' as [R''|R'']; [discriminate|]. destruct mid' as [|h' ls']; [discriminate|]. cbn [first_leg hd] in F1, F2.
             exists (a :: t1 :: h' :: ls'). split; [reflexivity|]. split; [cbn in *; lia|]. split; [right; apply rides_more; auto; congruence|].
             split; [reflexivity|]. split; [reflexivity|].
             change (last_leg (a :: t1 :: h' :: ls')) with (last_leg (h' :: ls')). change (last_leg (a :: t1 :: b :: ls)) with (last_leg (b :: ls)). auto.
      + cbn [app] in E. injection E as <- E.
        destruct (IH pre mid post n) as (mid' & -> & X); [exact E|intros g Hg; apply Hpre; now right|exact Hpost|exact R|].
        exists mid'. split; [reflexivity|exact X].
    - (* keep *)
      assert (Ra : is_ride a) by (destruct (l_uses a) eqn:U; try discriminate; eexists _, _, _, _, _; exact U).
      assert (Rc : is_ride c) by (destruct (l_uses c) eqn:U; try discriminate; eexists _, _, _, _, _; exact U).
      apply is_transit_spec in Hb.
      destruct pre as [|x pre]; [|cbn [app] in E; injection E as -> E; destruct (Hpre x (or_introl eq_refl) Ra)].
      destruct R as [->|R]; [cbn [app] in E; subst post; destruct (Hpost a (or_introl eq_refl) Ra)|].
      inversion R as [g Hg E0 E1|n' g f h ls Hg Hf H1 H2 H3 H4 R' E0 E1]; subst; cbn [app] in E.
      { injection E as <- E. subst post. destruct (Hpost b (or_intror (or_introl eq_refl)) Hb). }
      injection E as <- <- <- E. destruct (IH [t1] (b :: ls) post n') as (mid' & -> & Lm & R'' & F1 & F2 & F3 & F4); [cbn; now rewrite E| |exact Hpost|now right|].
      { intros g [<-|[]]. exact (change_not_ride P _ Hf). }
      destruct R'' as [R''|R'']; [discriminate|]. destruct mid' as [|h' ls']; [discriminate|]. cbn [first_leg hd] in F1, F2.
      exists (a :: t1 :: h' :: ls'). split; [reflexivity|]. split; [cbn in *; lia|]. split; [right; apply rides_more; auto; congruence|].
      split; [reflexivity|]. split; [reflexivity|].
      change (last_leg (a :: t1 :: h' :: ls')) with (last_leg (h' :: ls')). change (last_leg (a :: t1 :: b :: ls)) with (last_leg (b :: ls)). auto.
    - (* replace *)
      assert (Ra : is_ride a) by (destruct (l_uses a) eqn:U; try discriminate; eexists _, _, _, _, _; exact U).
      assert (Rc : is_ride c) by (destruct (l_uses c) eqn:U; try discriminate; eexists _, _, _, _, _; exact U).
      apply is_transit_spec in Hb.
      destruct pre as [|x pre]; [|cbn [app] in E; injection E as -> E; destruct (Hpre x (or_introl eq_refl) Ra)].
      destruct R as [->|R]; [cbn [app] in E; subst post; destruct (Hpost a (or_introl eq_refl) Ra)|].
      inversion R as [g Hg E0 E1|n' g f h ls Hg Hf H1 H2 H3 H4 R' E0 E1]; subst; cbn [app] in E.
      { injection E as <- E. subst post. destruct (Hpost b (or_intror (or_introl eq_refl)) Hb). }
      injection E as <- <- <- E.
      inversion R' as [g Hg' E0 E1|n'' g f' h' ls' Hg' Hf' I1 I2 I3 I4 R'' E0 E1]; subst; cbn [app] in E.
      { subst post. destruct (Hpost c (or_intror (or_introl eq_refl)) Rc). }
      injection E as <- <- E.
      assert (Gc : ride_leg P c) by (inversion R''; auto).
      destruct (ride_end_spec _ _ _ _ Hwf Hg Ha) as (-> & ->). destruct (ride_begin_spec _ _ _ _ Hwf Gc Hc) as (-> & ->).
      destruct (earliest_spec P L Q lo hi _ _ _ _ _ Hwf HS HE) as [X|(w & g & w' & X & G & W1 & W2 & W3 & W4 & W5 & V1 & V2 & V3 & V4 & V5)]; [discriminate|].
      injection X as -> -> ->.
      destruct (IH [w] (g :: w' :: c :: ls') post (S n'')) as (mid' & -> & Lm & Rn & F1 & F2 & F3 & F4).
      { cbn. now rewrite E. }
      { intros y [<-|[]]. exact (change_not_ride P _ W1). }
      { exact Hpost. }
      { right. apply rides_more; auto; lia. }
      destruct Rn as [Rn|Rn]; [discriminate|]. destruct mid' as [|h' ls2]; [discriminate|]. cbn [first_leg hd] in F1, F2.
      exists (a :: w :: h' :: ls2). split; [reflexivity|]. split; [cbn in *; lia|].
      split; [right; apply rides_more; auto; try congruence; lia|].
      split; [reflexivity|]. split; [reflexivity|].
      change (last_leg (a :: w :: h' :: ls2)) with (last_leg (h' :: ls2)). 
      change (last_leg (a :: t1 :: b :: t2 :: c :: ls')) with (last_leg (g :: w' :: c :: ls')). auto.
    - (* error *)
      destruct (earliest_spec P L Q lo hi _ _ _ _ _ Hwf HS HE) as [X|(w & g & w' & X & _)]; discriminate.
  Qed.
End Improve.

Lemma start_side_walk P Q front t0 ls l t g : start_side P Q front t0 ls l t -> In g ls -> ~ is_ride g.
Proof.
  intros H Hg (a & b & c & d & e & U). destruct H as [|g' loc t d' Hm (x & y & Hu)|g' loc t x y Hm Hu]; [destruct Hg| |]; destruct Hg as [<-|[]]; congruence.
Qed.
Lemma dest_side_walk P Q front l1 t1 ls l t g : dest_side P Q front l1 t1 ls l t -> In g ls -> ~ is_ride g.
Proof.
  intros H Hg (a & b & c & d & e & U). destruct H as [|g' loc t d' Hm (x & y & Hu)|g' loc t x y Hm Hu]; [destruct Hg| |]; destruct Hg as [<-|[]]; congruence.
Qed.

(** Replacing interior rides of a valid journey never fails and gives a valid journey with the same number of legs and rides, the same
    start and the same destination times. *)
Theorem C63_keeps_journey : forall P RQ L Q lo hi n t0 l1 t1 legs res,
  all_vehicles_wf P -> footpaths_both_ways P -> itinerary P RQ n t0 l1 t1 legs -> improved P L Q lo hi legs res ->
  exists legs', res = Some legs' /\ itinerary P RQ n t0 l1 t1 legs' /\ length legs' = length legs /\
    l_dep (first_leg legs') = l_dep (first_leg legs) /\ l_arr (last_leg legs') = l_arr (last_leg legs).
Proof.
  intros P RQ L Q lo hi n t0 l1 t1 legs res Hwf HS (pre & mid & post & -> & R & Sd) I.
  assert (NP : (forall g, In g pre -> ~ is_ride g) /\ (forall g, In g post -> ~ is_ride g)).
  { destruct (p_fwd P); destruct Sd as (S1 & S2); split; intros g Hg; eauto using start_side_walk, dest_side_walk. }
  destruct NP as (N1 & N2).
  destruct (improved_rides P L Q lo hi Hwf HS _ _ I pre mid post n eq_refl N1 N2 (or_intror R)) as (mid' & -> & Lm & R' & F1 & F2 & F3 & F4).
  pose proof (rides_length _ _ _ R) as LR.
  destruct R' as [->|R']; [cbn in LR; lia|].
  exists (pre ++ mid' ++ post). split; [reflexivity|]. split; [|split].
  - exists pre, mid', post. split; [reflexivity|]. split; [exact R'|]. rewrite F1, F2, F3, F4. exact Sd.
  - rewrite !app_length. lia.
  - assert (M1 : exists g ls, mid = g :: ls) by (destruct mid; [cbn in LR; lia|eauto]).
    assert (M2 : exists g ls, mid' = g :: ls) by (destruct mid'; [cbn in Lm; lia|eauto]).
    destruct M1 as (g1 & ls1 & ->). destruct M2 as (g2 & ls2 & ->). cbn [app]. unfold first_leg. rewrite !hd_app. split.
    + destruct pre; [exact F2|reflexivity].
    + assert (X : forall g ls, l_arr (last_leg (pre ++ g :: ls ++ post)) = match post with [] => l_arr (last_leg (g :: ls)) | _ => l_arr (last_leg post) end).
      { intros g ls. unfold last_leg. destruct post as [|y post]; [rewrite app_nil_r; now rewrite last_app_cons, (last_app_cons [] g ls)|].
        replace (pre ++ g :: ls ++ y :: post) with ((pre ++ g :: ls) ++ y :: post) by (rewrite <- app_assoc; reflexivity).
        rewrite last_app_cons, (last_app_cons [] y post). reflexivity. }
      rewrite !X. destruct post; [exact F4|reflexivity].
Qed.

(** The replacement is defined for every journey. *)
Theorem C63_total : forall P L Q lo hi legs, exists res, improved P L Q lo hi legs res.
Proof.
  intros P L Q lo hi legs. remember (length legs) as k eqn:Ek. revert legs Ek.
  induction k as [|k IH]; intros legs Ek; [exists (Some legs); constructor; lia|].
  destruct legs as [|a [|t1 [|b [|t2 [|c rest]]]]]; try (eexists; apply improved_short; cbn; lia).
  assert (N : forall x1 x2 x3, exists res, improved P L Q lo hi (x1 :: x2 :: x3 :: c :: rest) res) by (intros; apply IH; cbn in *; lia).
  destruct (is_transit a && is_transit b && is_transit c) eqn:C.
  - apply andb_true_iff in C. destruct C as (C & Hc). apply andb_true_iff in C. destruct C as (Ha & Hb).
    assert (Ea : exists from arr, ride_end P (l_uses a) = Some (from, arr)) by (unfold is_transit in Ha; destruct (l_uses a); try discriminate; cbn; eauto).
    assert (Ec : exists to dep, ride_begin P (l_uses c) = Some (to, dep)) by (unfold is_transit in Hc; destruct (l_uses c); try discriminate; cbn; eauto).
    destruct Ea as (from & arr & Ea). destruct Ec as (to & dep & Ec).
    destruct (C60_stream_exists (with_dir true P) L (alternative_query Q from to) lo hi arr) as ([|j stream] & M).
    + destruct (N t1 b t2) as (res & X). eexists. eapply improved_keep; eauto. now apply earliest_none.
    + destruct (Z_lt_le_dec dep (j_arr j)) as [T|T].
      * destruct (N t1 b t2) as (res & X). eexists. eapply improved_keep; eauto. eapply earliest_late; eauto.
      * pose proof (earliest_some P L Q lo hi from to arr dep j stream M T) as EE.
        destruct (first_three arr j) as [[[t1' b'] t2']|].
        -- destruct (N t1' b' t2') as (res & X). eexists. eapply improved_replace; eauto.
        -- eexists. eapply improved_error; eauto.
  - destruct (N t1 b t2) as (res & X). eexists. eapply improved_skip; eauto.
Qed.

(** ** Non-vacuity: three rides; the second one (8:40) has an earlier alternative (8:20) that fits. *)
Module AltEx.
  Import DirectEx.
  Definition veh_wf (r : route) : Prop := forall v, In v (r_vehicles r) ->
    exists ts, v = veh ts /\ (length ts = length (r_stops r)) /\ Forall (fun t => 0 <= t < 1440) ts /\ StronglySorted Z.le ts.
  Lemma wf_of P : (forall ri r, nth_error (tt_routes (p_tt P)) ri = Some r -> veh_wf r /\ r_rt r = None) -> all_vehicles_wf P.
  Proof.
    intros H. split; [|apply static_rt_ok; intros ri r Hr; apply (H _ _ Hr)].
    intros ri r v Hr Hv. destruct (H _ _ Hr) as (W & _). destruct (W v Hv) as (ts & -> & El & F & S). rewrite Forall_forall in F.
    assert (B : forall s, (s < length (r_stops r))%nat -> 0 <= nth s ts 0 < 1440) by (intros s Hl; apply F, nth_In; lia).
    assert (M : forall s s', (s <= s')%nat -> (s' < length ts)%nat -> nth s ts 0 <= nth s' ts 0).
    { clear - S. induction S as [|x l S IH A]; intros [|s] [|s'] H1 H2; cbn in *; try lia. - rewrite Forall_forall in A. apply A, nth_In. lia. - apply IH; lia. }
    split; [|split]; unfold event_minutes, veh; cbn [v_ev d_days d_mam].
    - intros s e Hl. specialize (B s Hl). lia.
    - intros s Hl. lia.
    - intros s s' Hl. specialize (M s s'). lia.
  Qed.
  Definition r0 := line [0; 1] (fun _ => true) [[480; 490]].
  Definition r1 := line [1; 2] (fun _ => true) [[500; 510]; [520; 530]].
  Definition r2 := line [2; 3] (fun _ => true) [[560; 570]].
  Definition P := par true 4 [r0; r1; r2] (fun _ => 2) (fun _ => []) (fun _ => false).
  Definition Q := mk_dquery Query_Model.kEquivalent Query_Model.kEquivalent true [(0%nat, 0)] [(3%nat, 0)] 98 99.
  Definition sched (ri vi : nat) (day : Z) : option (nat * nat * Z) := Some (ri, vi, day).
  Definition g1 := mk_leg 0 1 480 490 (Ride 0 0 0 0 2).
  Definition g3 := mk_leg 2 3 560 570 (Ride 2 0 0 0 2).
  Definition j := [g1; mk_leg 1 1 490 492 (Foot 1 2); mk_leg 1 2 520 530 (Ride 1 1 0 0 2); mk_leg 2 2 530 532 (Foot 2 2); g3].
  Definition alt := [mk_leg 1 1 498 500 (Foot 1 2); mk_leg 1 2 500 510 (Ride 1 0 0 0 2); mk_leg 2 2 510 512 (Foot 2 2)].
  Definition alt' := [mk_leg 1 1 518 520 (Foot 1 2); mk_leg 1 2 520 530 (Ride 1 1 0 0 2); mk_leg 2 2 530 532 (Foot 2 2)].
  Lemma wf : all_vehicles_wf P.
  Proof.
    apply wf_of. intros [|[|[|ri]]] r HH; cbn in HH; try (destruct ri; discriminate); injection HH as <-; (split; [|reflexivity]);
      intros v Hv; cbn in Hv; repeat (destruct Hv as [<-|Hv]; [eexists; split; [reflexivity|]; split; [reflexivity|]; split; repeat constructor; lia|]); destruct Hv.
  Qed.
  Lemma alts pl : leg_alternatives P locs0 Q 0 0 pl sched j 2 5 [alt].
  Proof.
    unfold leg_alternatives. cbn [j nth_error]. cbn [Nat.eqb orb is_transit l_uses negb]. cbv zeta.
    change (prev_transit j 2) with (Some g1). change (next_transit j 2) with (Some g3). cbn [g1 g3 l_arr l_dep].
    exists [alt; alt']. split; [|vm_compute; reflexivity].
    unfold direct_journeys. assert (E : generators (with_dir true P) locs0 (direct_query Q (Some g1) (Some g3)) 0 0 490 = [[alt; alt']]) by (vm_compute; reflexivity).
    rewrite E. do 2 (apply (merged_step (with_dir true P) [] _ _ []); [intros y ys []|]). constructor. intros g [<-|[]]. reflexivity.
  Qed.
  Ltac ride ri vi r v s t := apply (ride_leg_intro P _ ri vi 0 0 2 r v s t);
    try reflexivity; try (unfold runs_on; cbn; lia); try (intros f sec _ Hf; discriminate).
  Lemma valid : rides P 3 j.
  Proof.
    unfold j. apply rides_more; try reflexivity; try (cbn; lia).
    - ride 0%nat 0%nat r0 (veh [480; 490]) (st 0) (st 1).
    - split; [eexists _, _; reflexivity|]. exists 2. split; [left; split; reflexivity|reflexivity].
    - apply rides_more; try reflexivity; try (cbn; lia).
      + ride 1%nat 1%nat r1 (veh [520; 530]) (st 1) (st 2).
      + split; [eexists _, _; reflexivity|]. exists 2. split; [left; split; reflexivity|reflexivity].
      + constructor. ride 2%nat 0%nat r2 (veh [560; 570]) (st 2) (st 3).
  Qed.
  Lemma idx : index_ok P.
  Proof.
    split.
    - intros [|[|[|ri]]] r s HH _; cbn in HH; try (destruct ri; discriminate); cbn; tauto.
    - assert (K : forall vs v day s e, In v (map veh vs) -> runs_on v day ->
        0 <= day + d_days (v_ev v s e) < 512 /\ ((0 <=? day + d_days (v_ev v s e)) && (day + d_days (v_ev v s e) <? 10)) = true).
      { intros vs v day s e Hv Hr. apply in_map_iff in Hv. destruct Hv as (ts & <- & _). unfold runs_on in Hr. cbn [v_ev v_days veh d_days] in *.
        rewrite Z.add_0_r. exact Hr. }
      intros [|[|[|ri]]] r v day s e HH Hv Hr Hs; cbn in HH; try (destruct ri; discriminate); injection HH as <-; exact (K _ _ _ s e Hv Hr).
  Qed.
  Lemma ends b : ends_ok locs0 Q b.
  Proof. right. destruct b; cbn; split; try (intros o d [HH|[]]; injection HH as <- <-; cbn; auto); auto. Qed.
End AltEx.

Example C62_nonvacuous : forall pl,
  all_vehicles_wf AltEx.P /\ no_flags_required AltEx.P /\ settings_monotone AltEx.P /\ footpaths_both_ways AltEx.P /\ ends_ok locs0 AltEx.Q true /\ ends_ok locs0 AltEx.Q false /\
  index_ok AltEx.P /\ rides AltEx.P 3 AltEx.j /\ leg_alternatives AltEx.P locs0 AltEx.Q 0 0 pl AltEx.sched AltEx.j 2 5 [AltEx.alt] /\
  rides AltEx.P 3 ([AltEx.g1] ++ AltEx.alt ++ [AltEx.g3]).
Proof.
  intros pl. split; [exact AltEx.wf|]. split; [intros f _; reflexivity|]. split; [intros x y _ H; exact H|]. split; [intros a b d; cbn; tauto|].
  split; [exact (AltEx.ends true)|]. split; [exact (AltEx.ends false)|]. split; [exact AltEx.idx|]. split; [exact AltEx.valid|]. split; [apply AltEx.alts|].
  apply (C62_interior_replacement AltEx.P locs0 AltEx.Q 0 0 pl AltEx.sched [] [] AltEx.g1 (mk_leg 1 1 490 492 (Foot 1 2)) (mk_leg 1 2 520 530 (Ride 1 1 0 0 2))
    (mk_leg 2 2 530 532 (Foot 2 2)) AltEx.g3 [] [] 5 3 [AltEx.alt] AltEx.alt AltEx.wf).
  - intros f _; reflexivity.
  - intros x y _ H; exact H.
  - intros a b d; cbn; tauto.
  - intros a l d [].
  - exact (AltEx.ends true).
  - exact (AltEx.ends false).
  - exact AltEx.valid.
  - eexists _, _, _, _, _; reflexivity.
  - eexists _, _, _, _, _; reflexivity.
  - intros (? & ? & ? & ? & ? & H); discriminate.
  - intros (? & ? & ? & ? & ? & H); discriminate.
  - exact (AltEx.alts pl).
  - now left.
Qed.

(** ** What is not true of alternatives *)
(** Two additional services are taken for the same vehicle: neither has a scheduled transport.  The earlier one is a valid alternative to
    the later one, but it is not offered. *)
Theorem C62_added_trips_refuted : exists P L Q lo hi sched j alt p x, forall pl,
  rides P 3 j /\ rides P 3 (p :: alt ++ [x]) /\ nth_error j 0 = Some p /\ nth_error j 4 = Some x /\
  (exists g g' ri ri' a b, In g j /\ In g' alt /\ l_uses g = Ride ri 0 0 a b /\ l_uses g' = Ride ri' 0 0 a b /\ ri <> ri' /\
     sched ri 0%nat 0 = None /\ sched ri' 0%nat 0 = None) /\
  forall out, leg_alternatives P L Q lo hi pl sched j 2 5 out -> out = [].
Proof.
  set (added := fun ts => mk_route (map DirectEx.st [1; 2]) 0 (fun _ => false) (fun _ => true) (fun _ _ => true) [DirectEx.veh ts] (Some 0)).
  set (P := DirectEx.par true 4 [AltEx.r0; added [500; 510]; AltEx.r2; added [520; 530]] (fun _ => 2) (fun _ => []) (fun _ => false)).
  set (sched := fun (ri vi : nat) (day : Z) => match ri with 1%nat | 3%nat => None | _ => Some (ri, vi, day) end).
  set (alt := AltEx.alt). set (t1 := mk_leg 1 1 490 492 (Foot 1 2)). set (t2 := mk_leg 2 2 530 532 (Foot 2 2)).
  exists P, locs0, AltEx.Q, 0, 0, sched, [AltEx.g1; t1; mk_leg 1 2 520 530 (Ride 3 0 0 0 2); t2; AltEx.g3], alt, AltEx.g1, AltEx.g3. intros pl.
  assert (C : forall a b x y, change_leg P (mk_leg a a x (x + 2) (Foot b y))).
  { intros a b x y. split; [eexists _, _; reflexivity|]. exists 2. split; [left; split; reflexivity|reflexivity]. }
  assert (G1 : ride_leg P AltEx.g1).
  { apply (ride_leg_intro P _ 0 0 0 0 2 AltEx.r0 (DirectEx.veh [480; 490]) (DirectEx.st 0) (DirectEx.st 1)); try reflexivity; try (unfold runs_on; cbn; lia); try (intros f sec _ Hf; discriminate). }
  assert (G3 : ride_leg P AltEx.g3).
  { apply (ride_leg_intro P _ 2 0 0 0 2 AltEx.r2 (DirectEx.veh [560; 570]) (DirectEx.st 2) (DirectEx.st 3)); try reflexivity; try (unfold runs_on; cbn; lia); try (intros f sec _ Hf; discriminate). }
  split; [|split; [|split; [reflexivity|split; [reflexivity|split]]]].
  - apply rides_more; try reflexivity; try (cbn; lia); [exact G1|apply (C 1%nat 1%nat 490 2)|]. apply rides_more; try reflexivity; try (cbn; lia); [|apply (C 2%nat 2%nat 530 2)|constructor; exact G3].
    apply (ride_leg_intro P _ 3 0 0 0 2 (added [520; 530]) (DirectEx.veh [520; 530]) (DirectEx.st 1) (DirectEx.st 2)); try reflexivity; try (unfold runs_on; cbn; lia); try (intros f sec _ Hf; discriminate).
  - unfold alt, AltEx.alt. cbn [app]. apply rides_more; try reflexivity; try (cbn; lia); [exact G1|apply (C 1%nat 1%nat 498 2)|].
    apply rides_more; try reflexivity; try (cbn; lia); [|apply (C 2%nat 2%nat 510 2)|constructor; exact G3].
    apply (ride_leg_intro P _ 1 0 0 0 2 (added [500; 510]) (DirectEx.veh [500; 510]) (DirectEx.st 1) (DirectEx.st 2)); try reflexivity; try (unfold runs_on; cbn; lia); try (intros f sec _ Hf; discriminate).
  - exists (mk_leg 1 2 520 530 (Ride 3 0 0 0 2)), (mk_leg 1 2 500 510 (Ride 1 0 0 0 2)), 3%nat, 1%nat, 0%nat, 2%nat.
    split; [right; right; left; reflexivity|]. split; [right; left; reflexivity|]. do 2 (split; [reflexivity|]). split; [discriminate|]. split; reflexivity.
  - intros out H. unfold leg_alternatives in H. cbn [nth_error Nat.eqb orb is_transit l_uses negb] in H. cbv zeta in H.
    set (j := [AltEx.g1; t1; mk_leg 1 2 520 530 (Ride 3 0 0 0 2); t2; AltEx.g3]) in *.
    change (prev_transit j 2) with (Some AltEx.g1) in H. change (next_transit j 2) with (Some AltEx.g3) in H. destruct H as (stream & M & ->).
    set (a1 := [mk_leg 1 1 498 500 (Foot 1 2); mk_leg 1 2 500 510 (Ride 1 0 0 0 2); mk_leg 2 2 510 512 (Foot 2 2)]).
    set (a2 := [mk_leg 1 1 518 520 (Foot 1 2); mk_leg 1 2 520 530 (Ride 3 0 0 0 2); mk_leg 2 2 530 532 (Foot 2 2)]).
    assert (I : forall y, In y stream -> y = a1 \/ y = a2).
    { intros y Hy. apply merged_perm in M. apply (Permutation.Permutation_in _ (Permutation.Permutation_sym M)) in Hy.
      assert (E : concat (generators (with_dir true P) locs0 (direct_query AltEx.Q (Some AltEx.g1) (Some AltEx.g3)) 0 0 (l_arr AltEx.g1)) = [a1; a2]) by (vm_compute; reflexivity).
      rewrite E in Hy. destruct Hy as [<-|[<-|[]]]; auto. }
    assert (F : forall l, (forall y, In y l -> y = a1 \/ y = a2) ->
      filter (not_original P sched (Ride 3 0 0 0 2)) (map (optimize P pl (direct_query AltEx.Q (Some AltEx.g1) (Some AltEx.g3))) l) = []).
    { induction l as [|y l IH]; intros Hl; [reflexivity|]. cbn [map filter].
      assert (E : not_original P sched (Ride 3 0 0 0 2) (optimize P pl (direct_query AltEx.Q (Some AltEx.g1) (Some AltEx.g3)) y) = false).
      { destruct (Hl y (or_introl eq_refl)) as [-> | ->]; vm_compute; reflexivity. }
      rewrite E. apply IH. intros z Hz. apply Hl. now right. }
    rewrite F; [reflexivity|]. intros y Hy. apply I. apply take_while_In in Hy. apply Hy.
Qed.

(** A journey of a backward query runs from the query's destination to its start; its alternatives run from the start to the
    destination: the query is not turned round. *)
Theorem C62_backward_refuted : exists P RQ L Q lo hi sched j alt, forall pl,
  p_fwd P = false /\ dq_start Q = rq_start RQ /\ dq_dest Q = rq_dest RQ /\ itinerary P RQ 1 490 0 480 j /\
  l_from (hd no_leg j) = 0%nat /\ l_to (last j no_leg) = 1%nat /\
  leg_alternatives P L Q lo hi pl sched j 0 5 [alt] /\ l_from (hd no_leg alt) = 1%nat /\ l_to (last alt no_leg) = 0%nat.
Proof.
  set (P := DirectEx.par false 2 [DirectEx.line [0; 1] (fun _ => true) [[480; 490]]; DirectEx.line [1; 0] (fun _ => true) [[500; 510]]] (fun _ => 2) (fun _ => []) (fun _ => false)).
  set (RQ := mk_rquery false false true [(1%nat, 0)] [(0%nat, 0)] Nat.eqb (fun l => [l]) 98).
  set (Q := mk_dquery Query_Model.kEquivalent Query_Model.kEquivalent true [(1%nat, 0)] [(0%nat, 0)] 98 99).
  set (j := [mk_leg 0 1 480 490 (Ride 0 0 0 0 2)]).
  set (alt := [mk_leg 1 1 500 500 (Foot 1 0); mk_leg 1 0 500 510 (Ride 1 0 0 0 2); mk_leg 0 0 510 510 (Foot 0 0)]).
  exists P, RQ, locs0, Q, 0, 0, AltEx.sched, j, alt. intros pl. do 3 (split; [reflexivity|]).
  split; [|split; [reflexivity|split; [reflexivity|split; [|split; reflexivity]]]].
  - exists [], j, []. split; [reflexivity|]. split; [|split].
    + constructor. apply (ride_leg_intro P _ 0 0 0 0 2 (DirectEx.line [0; 1] (fun _ => true) [[480; 490]]) (DirectEx.veh [480; 490]) (DirectEx.st 0) (DirectEx.st 1)); try reflexivity; try (unfold runs_on; cbn; lia); try (intros f sec _ Hf; discriminate).
    + apply dest_direct. reflexivity.
    + apply start_direct; [reflexivity| |cbn; lia]. exists 1%nat, 0. split; [now left|reflexivity].
  - unfold leg_alternatives. cbn [j nth_error Nat.eqb orb is_transit l_uses negb]. cbv zeta.
    change (prev_transit j 0) with (@None leg). change (next_transit j 0) with (@None leg). cbn [hd l_dep].
    exists [alt]. split; [|vm_compute; reflexivity].
    unfold direct_journeys. assert (E : generators (with_dir true P) locs0 (direct_query Q None None) 0 0 480 = [[alt]]) by (vm_compute; reflexivity).
    change (l_dep (hd no_leg j)) with 480. rewrite E. apply (merged_step (with_dir true P) [] _ _ []); [intros y ys []|]. constructor. intros g [<-|[]]. reflexivity.
Qed.

(** ** Interior rides *)
Lemma improved_window P L Q lo hi a t1 b t2 c j from arr to dep res : is_transit b = true -> ride_end P (l_uses a) = Some (from, arr) -> ride_begin P (l_uses c) = Some (to, dep) ->
  is_transit a = true -> is_transit c = true ->
  concat (generators (with_dir true P) L (alternative_query Q from to) lo hi arr) = [j] -> j_arr j <= dep ->
  improved P L Q lo hi [a; t1; b; t2; c] res ->
  res = match first_three arr j with Some (x, y, z) => Some [a; x; y; z; c] | None => None end.
Proof.
  intros Hb Ha Hc Ta Tc G T H.
  assert (Z : forall r, earliest_alternative P L Q lo hi from to arr dep r -> r = option_map Some (first_three arr j)).
  { intros r HE. destruct HE as [M|j' s M T'|j' s M T'].
    - apply merged_perm in M. rewrite G in M. apply Permutation.Permutation_length in M. discriminate.
    - apply (merged_one _ _ _ _ G) in M. injection M as -> ->. lia.
    - apply (merged_one _ _ _ _ G) in M. injection M as -> ->. reflexivity. }
  inversion H as [j0 Hl|a0 u1 b0 u2 c0 rest out C I|a0 u1 b0 u2 c0 rest from' arr' to' dep' out Hb' Ha' Hc' HE I
    |a0 u1 b0 u2 c0 rest from' arr' to' dep' x y z out Hb' Ha' Hc' HE I|a0 u1 b0 u2 c0 rest from' arr' to' dep' Hb' Ha' Hc' HE]; subst.
  - cbn in Hl. lia.
  - rewrite Hb, Ta, Tc in C. discriminate.
  - rewrite Ha in Ha'. rewrite Hc in Hc'. injection Ha' as <- <-. injection Hc' as <- <-. apply Z in HE. destruct (first_three arr j); discriminate.
  - rewrite Ha in Ha'. rewrite Hc in Hc'. injection Ha' as <- <-. injection Hc' as <- <-. apply Z in HE. destruct (first_three arr j) as [[[p q] s]|]; [|discriminate].
    injection HE as -> -> ->. inversion I; subst. reflexivity.
  - rewrite Ha in Ha'. rewrite Hc in Hc'. injection Ha' as <- <-. injection Hc' as <- <-. apply Z in HE. destruct (first_three arr j); [discriminate|reflexivity].
Qed.

Example C63_nonvacuous : exists RQ res legs', itinerary AltEx.P RQ 3 480 3 570 AltEx.j /\ all_vehicles_wf AltEx.P /\ footpaths_both_ways AltEx.P /\
  improved AltEx.P locs0 AltEx.Q 0 0 AltEx.j res /\ res = Some legs' /\ legs' <> AltEx.j /\
  nth_error legs' 2 = Some (mk_leg 1 2 500 510 (Ride 1 0 0 0 2)) /\ nth_error legs' 1 = Some (mk_leg 1 1 490 492 (Foot 1 2)).
Proof.
  exists (mk_rquery false false true [(0%nat, 0)] [(3%nat, 0)] Nat.eqb (fun l => [l]) 98).
  eexists. exists [AltEx.g1; mk_leg 1 1 490 492 (Foot 1 2); mk_leg 1 2 500 510 (Ride 1 0 0 0 2); mk_leg 2 2 510 512 (Foot 2 2); AltEx.g3].
  split; [|split; [exact AltEx.wf|split; [intros a b d; cbn; tauto|split; [|split; [reflexivity|split; [discriminate|split; reflexivity]]]]]].
  - exists [], AltEx.j, []. split; [reflexivity|]. split; [exact AltEx.valid|]. split.
    + apply start_direct; [reflexivity| |cbn; lia]. exists 0%nat, 0. split; [now left|reflexivity].
    + apply dest_direct. reflexivity.
  - assert (X1 : earliest_alternative AltEx.P locs0 AltEx.Q 0 0 1 2 490 560
      (Some (Some (mk_leg 1 1 490 492 (Foot 1 2), mk_leg 1 2 500 510 (Ride 1 0 0 0 2), mk_leg 2 2 510 512 (Foot 2 2))))).
    { refine (earliest_some AltEx.P locs0 AltEx.Q 0 0 1 2 490 560 AltEx.alt [AltEx.alt'] _ _); [|cbn; lia].
      unfold direct_journeys. assert (E : generators (with_dir true AltEx.P) locs0 (alternative_query AltEx.Q 1 2) 0 0 490 = [[AltEx.alt; AltEx.alt']]) by (vm_compute; reflexivity).
      rewrite E. do 2 (apply (merged_step (with_dir true AltEx.P) [] _ _ []); [intros y ys []|]). constructor. intros g [<-|[]]. reflexivity. }
    exact (improved_replace AltEx.P locs0 AltEx.Q 0 0 AltEx.g1 (mk_leg 1 1 490 492 (Foot 1 2)) (mk_leg 1 2 520 530 (Ride 1 1 0 0 2)) (mk_leg 2 2 530 532 (Foot 2 2)) AltEx.g3 [] 1 490 2 560
      _ _ _ (Some _) eq_refl eq_refl eq_refl X1 (improved_short AltEx.P locs0 AltEx.Q 0 0 [mk_leg 1 1 490 492 (Foot 1 2); mk_leg 1 2 500 510 (Ride 1 0 0 0 2); mk_leg 2 2 510 512 (Foot 2 2); AltEx.g3] (le_n 5))).
Qed.

(** The "earliest" alternative can be later than the ride it replaces: the vehicle left the stop of arrival a minute too early, but was
    caught by walking to its next stop; the search for direct journeys only tries the first stop (C60). *)
Theorem C63_earliest_refuted : exists P RQ L Q lo hi legs g, itinerary P RQ 3 470 4 620 legs /\ footpaths_both_ways P /\ nth_error legs 2 = Some g /\
  forall res, improved P L Q lo hi legs res -> exists legs' g', res = Some legs' /\ nth_error legs' 2 = Some g' /\ l_arr g < l_arr g'.
Proof.
  set (l0 := DirectEx.line [0; 1] (fun _ => true) [[470; 481]]). set (l1 := DirectEx.line [1; 2; 3] (fun _ => true) [[480; 490; 520]]).
  set (l2 := DirectEx.line [1; 3] (fun _ => true) [[500; 600]]). set (l3 := DirectEx.line [3; 4] (fun _ => true) [[610; 620]]).
  set (P := mk_params true (mk_tt 5 [l0; l1; l2; l3] (fun _ => seq 0 4) (fun _ => 2) (fun l => match l with 1%nat => [(2%nat, 5)] | _ => [] end)
              (fun l => match l with 2%nat => [(1%nat, 5)] | _ => [] end) (fun _ d => (0 <=? d) && (d <? 10)))
              (fun _ => false) None 99 (fun _ => 0) 0 (fun _ => true) (fun _ => false) (fun d => d)).
  set (a := mk_leg 0 1 470 481 (Ride 0 0 0 0 2)). set (t1 := mk_leg 1 2 481 486 (Foot 2 5)). set (b := mk_leg 2 3 490 520 (Ride 1 0 0 1 3)).
  set (t2 := mk_leg 3 3 520 522 (Foot 3 2)). set (c := mk_leg 3 4 610 620 (Ride 3 0 0 0 2)).
  exists P, (mk_rquery false false true [(0%nat, 0)] [(4%nat, 0)] Nat.eqb (fun l => [l]) 98), locs0, AltEx.Q, 0, 0, [a; t1; b; t2; c], b.
  split; [|split; [|split; [reflexivity|]]].
  - exists [], [a; t1; b; t2; c], []. split; [reflexivity|]. split; [|split].
    + apply rides_more; try reflexivity; try (cbn; lia).
      * apply (ride_leg_intro P _ 0 0 0 0 2 l0 (DirectEx.veh [470; 481]) (DirectEx.st 0) (DirectEx.st 1)); try reflexivity; try (unfold runs_on; cbn; lia); try (intros f sec _ Hf; discriminate).
      * split; [eexists _, _; reflexivity|]. exists 5. split; [right; exists 5; split; [left; reflexivity|reflexivity]|reflexivity].
      * apply rides_more; try reflexivity; try (cbn; lia).
        -- apply (ride_leg_intro P _ 1 0 0 1 3 l1 (DirectEx.veh [480; 490; 520]) (DirectEx.st 2) (DirectEx.st 3)); try reflexivity; try (unfold runs_on; cbn; lia); try (intros f sec _ Hf; discriminate).
        -- split; [eexists _, _; reflexivity|]. exists 2. split; [left; split; reflexivity|reflexivity].
        -- constructor. apply (ride_leg_intro P _ 3 0 0 0 2 l3 (DirectEx.veh [610; 620]) (DirectEx.st 3) (DirectEx.st 4)); try reflexivity; try (unfold runs_on; cbn; lia); try (intros f sec _ Hf; discriminate).
    + apply start_direct; [reflexivity| |cbn; lia]. exists 0%nat, 0. split; [now left|reflexivity].
    + apply dest_direct. reflexivity.
  - intros x y d. destruct x as [|[|x]], y as [|[|[|y]]]; cbn; split; intros H; try destruct H as [[=]|[]]; try tauto; subst; auto.
  - intros res H.
    refine (let E := improved_window P locs0 AltEx.Q 0 0 a t1 b t2 c [mk_leg 1 1 498 500 (Foot 1 2); mk_leg 1 3 500 600 (Ride 2 0 0 0 2); mk_leg 3 3 600 602 (Foot 3 2)]
      1 481 3 610 res eq_refl eq_refl eq_refl eq_refl eq_refl _ _ H in _); clearbody E.
    + rewrite E. eexists _, _. split; [reflexivity|]. split; [reflexivity|]. cbn. lia.
    Unshelve.
    * vm_compute. reflexivity.
    * vm_compute. discriminate.
Qed.
