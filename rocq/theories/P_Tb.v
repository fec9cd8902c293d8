(** C37, C38: the tables of the trip based search. *)
From Coq Require Import List ZArith Bool Arith Lia.
From Verif Require Import Base Pareto_Model Pareto_Proofs Calendar_Model Query_Model Finish_Model P_Finish Tb_Model.
Import ListNotations.
Local Open Scope Z_scope.

(** * C37 *)
(** Vehicle [o] of day [d] comes before or is vehicle [o'] of day [d']. *)
Definition no_later_vehicle (o d o' d' : Z) : Prop := d < d' \/ (d = d' /\ o <= o').
(** The limits of the packed representation: 4096 vehicles per route, 16 days, 4096 segments, 16 rounds. *)
Definition fits (o d : Z) : Prop := 0 <= o < 4096 /\ 0 <= d < 16.
Definition update_fits (u : tb_update) : Prop := fits (tu_transport u) (tu_day u) /\ 0 <= tu_segment u < 4096 /\ 0 <= tu_k u < 16.

Lemma to_transport_val o d : fits o d -> to_transport o d = d * 4096 + o.
Proof.
  intros [Ho Hd]. unfold to_transport. rewrite Z.shiftl_mul_pow2 by lia. change (2 ^ 12) with 4096.
  rewrite Z.mod_small by lia.
  assert (E : Z.land (d * 4096) o = 0).
  { apply Z.bits_inj'. intros n Hn. rewrite Z.land_spec, Z.bits_0. change 4096 with (2 ^ 12).
    destruct (Z.lt_ge_cases n 12) as [L|L].
    - rewrite Z.mul_pow2_bits_low by lia. reflexivity.
    - rewrite <- (Z.mod_small o (2 ^ 12)) by (change (2 ^ 12) with 4096; lia). rewrite Z.mod_pow2_bits_high by lia. apply andb_false_r. }
  rewrite <- Z.lxor_lor by exact E. rewrite <- Z.add_nocarry_lxor by exact E. reflexivity.
Qed.
Lemma to_transport_le o d o' d' : fits o d -> fits o' d' -> to_transport o d <= to_transport o' d' <-> no_later_vehicle o d o' d'.
Proof. intros H H'. rewrite !to_transport_val by auto. unfold no_later_vehicle, fits in *. lia. Qed.

Definition to_entry (u : tb_update) : tb_entry := mk_te (to_transport (tu_transport u) (tu_day u)) (tu_segment u mod 4096) (tu_k u mod 16).
Lemma te_refl x : te_dominates x x = true.
Proof. unfold te_dominates. now rewrite !Z.leb_refl. Qed.
Lemma te_trans x y z : te_dominates x y = true -> te_dominates y z = true -> te_dominates x z = true.
Proof. unfold te_dominates. rewrite !andb_true_iff, !Z.leb_le. lia. Qed.
Lemma reached_all_route us r : reached_all us r = add_all tb_entry te_dominates (map to_entry (filter (fun u => Nat.eqb (tu_route u) r) us)).
Proof.
  unfold reached_all, add_all. rewrite <- (rev_involutive us). generalize (rev us) as l. intros l.
  induction l as [|u l IH]; [reflexivity|]. cbn [rev]. rewrite fold_left_app. cbn [fold_left].
  rewrite filter_app, map_app, fold_left_app. cbn [filter].
  unfold reached_update at 1. unfold upd. rewrite (Nat.eqb_sym (tu_route u) r).
  destruct (Nat.eqb_spec r (tu_route u)) as [->|Hn].
  - cbn [map fold_left]. rewrite IH. reflexivity.
  - cbn [map fold_left]. exact IH.
Qed.
(** The query as a minimum. *)
Lemma query_fold (p : tb_entry -> bool) es : forall m,
  let q := fold_left (fun m e => if p e && (te_segment e <? m) then te_segment e else m) es m in
  q <= m /\ (forall e, In e es -> p e = true -> q <= te_segment e) /\ (q = m \/ exists e, In e es /\ p e = true /\ te_segment e = q).
Proof.
  induction es as [|e es IH]; intros m; cbn [fold_left].
  - split; [lia|]. split; [intros e []|auto].
  - destruct (IH (if p e && (te_segment e <? m) then te_segment e else m)) as (A & B & C).
    assert (D : (if p e && (te_segment e <? m) then te_segment e else m) <= m) by (destruct (p e); cbn [andb]; [destruct (Z.ltb_spec (te_segment e) m)|]; lia).
    split; [cbv zeta in A; lia|]. split.
    + intros e' [<-|Hi] Hp; [|auto]. rewrite Hp in *. cbn [andb] in *. destruct (Z.ltb_spec (te_segment e) m); cbv zeta in A; lia.
    + destruct C as [C|(e' & Hi & Hp & He)].
      * destruct (p e) eqn:Ep; cbn [andb] in C |- *; [|left; exact C].
        destruct (Z.ltb_spec (te_segment e) m); [|left; exact C].
        right. exists e. split; [now left|]. split; [exact Ep|]. symmetry. exact C.
      * right. exists e'. split; [now right|]. split; auto.
Qed.

(** After any history of updates the query returns the smallest segment recorded for the route by a vehicle that is not later and in
    a round that is not later, and the last stop if there is none. *)
Theorem C37_query_returns_best_recorded_segment :
  forall us n_stops r o d k,
    Forall update_fits us -> fits o d -> 0 <= k < 16 -> (1 <= n_stops r < 4096)%nat ->
    let matching u := In u us /\ tu_route u = r /\ no_later_vehicle (tu_transport u) (tu_day u) o d /\ tu_k u <= k in
    let q := reached_query (reached_all us) n_stops r o d k in
    q <= Z.of_nat (n_stops r) - 1 /\ (forall u, matching u -> q <= tu_segment u) /\
    (q = Z.of_nat (n_stops r) - 1 \/ exists u, matching u /\ tu_segment u = q).
Proof.
  intros us n_stops r o d k Hus Hod Hk Hn matching q.
  set (p := fun e => (te_k e <=? k) && (te_transport e <=? to_transport o d)).
  assert (EQ : q = fold_left (fun m e => if p e && (te_segment e <? m) then te_segment e else m) (reached_all us r) ((Z.of_nat (n_stops r) - 1) mod 65536)) by reflexivity.
  rewrite Z.mod_small in EQ by lia.
  pose proof (query_fold p (reached_all us r) (Z.of_nat (n_stops r) - 1)) as (A & B & C). cbv zeta in A, B, C. rewrite <- EQ in A, B, C.
  clear EQ. rewrite Forall_forall in Hus.
  rewrite reached_all_route in B, C.
  assert (IN : forall e, In e (map to_entry (filter (fun u => Nat.eqb (tu_route u) r) us)) <-> exists u, In u us /\ tu_route u = r /\ to_entry u = e).
  { intros e. rewrite in_map_iff. split.
    - intros (u & E & H). apply filter_In in H as [H1 H2]. apply Nat.eqb_eq in H2. eauto.
    - intros (u & H1 & H2 & H3). exists u. split; auto. apply filter_In. split; auto. now apply Nat.eqb_eq. }
  assert (VAL : forall u, In u us -> te_segment (to_entry u) = tu_segment u /\ te_k (to_entry u) = tu_k u).
  { intros u Hu. destruct (Hus u Hu) as (_ & H1 & H2). unfold to_entry. cbn [te_segment te_k]. rewrite !Z.mod_small by lia. auto. }
  split; [exact A|]. split.
  - intros u (Hu & Hr & Hv & Huk).
    destruct (add_all_covers tb_entry te_dominates te_refl te_trans _ (to_entry u) (proj2 (IN (to_entry u)) (ex_intro _ u (conj Hu (conj Hr eq_refl))))) as (e & He & Hd).
    destruct (VAL u Hu) as [V1 V2]. unfold te_dominates in Hd. rewrite !andb_true_iff, !Z.leb_le in Hd. destruct Hd as [[D1 D2] D3].
    assert (P : p e = true).
    { unfold p. rewrite andb_true_iff, !Z.leb_le. split; [lia|].
      transitivity (te_transport (to_entry u)); [exact D2|]. cbn [to_entry te_transport]. apply to_transport_le; auto. now apply Hus. }
    specialize (B e He P). lia.
  - destruct C as [C|(e & He & Hp & Hq)]; [left; exact C|right].
    apply (add_all_sound tb_entry te_dominates te_trans) in He. apply IN in He as (u & Hu & Hr & Ee).
    exists u. destruct (VAL u Hu) as [V1 V2]. unfold p in Hp. rewrite andb_true_iff, !Z.leb_le in Hp. rewrite <- Ee in *.
    split; [|congruence]. split; [exact Hu|]. split; [exact Hr|]. split; [|lia].
    apply to_transport_le; [now apply Hus|auto|tauto].
Qed.
Example C37_example :
  let us := [mk_tu 0 3 5 1 0; mk_tu 0 2 7 1 0; mk_tu 1 0 1 0 0; mk_tu 0 9 2 0 2; mk_tu 0 4 6 1 0] in
  Forall update_fits us /\
  reached_query (reached_all us) (fun _ => 12%nat) 0 4 1 0 = 5 /\ reached_query (reached_all us) (fun _ => 12%nat) 0 2 1 1 = 7 /\
  reached_query (reached_all us) (fun _ => 12%nat) 0 4 1 2 = 2 /\ reached_query (reached_all us) (fun _ => 12%nat) 0 1 0 3 = 11.
Proof.
  cbv zeta. split; [|vm_compute; auto].
  repeat constructor; unfold update_fits, fits; cbn; lia.
Qed.
(** The limit of 4096 vehicles per route is not enforced: with more vehicles a query for a vehicle of day 0 is answered with the
    segment of a vehicle of day 1. *)
Theorem C37_large_route_refuted :
  exists us n_stops r o d k,
    (forall u, In u us -> 0 <= tu_transport u < 65536 /\ 0 <= tu_day u < 8 /\ tu_segment u < 4096 /\ tu_k u = 0) /\
    (forall u, In u us -> ~ no_later_vehicle (tu_transport u) (tu_day u) o d) /\
    reached_query (reached_all us) n_stops r o d k <> Z.of_nat (n_stops r) - 1.
Proof.
  exists [mk_tu 0 5 3 1 0], (fun _ => 10%nat), 0%nat, 4200, 0, 0.
  split; [intros u [<-|[]]; cbn; lia|]. split; [intros u [<-|[]]; unfold no_later_vehicle; cbn; lia|]. vm_compute. discriminate.
Qed.

(** * C38 *)
(** [t] is the smallest time among the pairs (time, days) valid on day [d]. *)
Definition is_min_on (xs : list (Z * bitfield)) (d t : Z) : Prop :=
  (exists bf, In (t, bf) xs /\ bf d = true) /\ forall t' bf, In (t', bf) xs -> bf d = true -> t <= t'.
Definition nothing_on (xs : list (Z * bitfield)) (d : Z) : Prop := forall t bf, In (t, bf) xs -> bf d = false.
Definition is_day (d : Z) : Prop := 0 <= d < 512.
Definition only_days (bf : bitfield) : Prop := forall d, bf d = true -> is_day d.
Definition pairs (es : list rr_entry) : list (Z * bitfield) := map (fun e => (rr_time e, rr_bf e)) es.

(** Value of the table on a day, as a function. *)
Definition min_opt (a b : option Z) : option Z :=
  match a, b with Some x, Some y => Some (Z.min x y) | Some x, None => Some x | None, _ => b end.
Lemma min_opt_assoc a b c : min_opt a (min_opt b c) = min_opt (min_opt a b) c.
Proof. destruct a, b, c; cbn [min_opt]; f_equal; lia. Qed.
Fixpoint tmin (es : list rr_entry) (d : Z) : option Z :=
  match es with [] => None | e :: es' => min_opt (if rr_bf e d then Some (rr_time e) else None) (tmin es' d) end.
Lemma tmin_spec es d :
  match tmin es d with Some t => is_min_on (pairs es) d t | None => nothing_on (pairs es) d end.
Proof.
  induction es as [|e es IH]; cbn [tmin pairs map].
  - intros t bf [].
  - destruct (rr_bf e d) eqn:E; cbn [min_opt].
    + destruct (tmin es d) as [t|].
      * destruct IH as ((bf & Hi & Hb) & Hm). split.
        -- destruct (Z.min_spec (rr_time e) t) as [[_ ->]|[_ ->]]; [exists (rr_bf e)|exists bf]; split; auto; [now left|now right].
        -- intros t' bf' [H|H] Hb'; [injection H as <- <-; lia|]. specialize (Hm t' bf' H Hb'). lia.
      * split; [exists (rr_bf e); split; [now left|exact E]|]. intros t' bf' [H|H] Hb'; [injection H as <- <-; lia|]. rewrite (IH t' bf' H) in Hb'. discriminate.
    + destruct (tmin es d) as [t|].
      * destruct IH as ((bf & Hi & Hb) & Hm). split; [exists bf; split; [now right|exact Hb]|].
        intros t' bf' [H|H] Hb'; [injection H as <- <-; congruence|eauto].
      * intros t' bf' [H|H]; [injection H as <- <-; exact E|eauto].
Qed.
Lemma tmin_app es es' d : tmin (es ++ es') d = min_opt (tmin es d) (tmin es' d).
Proof.
  induction es as [|e es IH]; cbn [app tmin]; [reflexivity|]. rewrite IH. apply min_opt_assoc.
Qed.
Lemma tmin_set es p e d : (p < length es)%nat ->
  tmin (set_nth es p e) d = min_opt (tmin (firstn p es) d) (min_opt (if rr_bf e d then Some (rr_time e) else None) (tmin (skipn (S p) es) d)).
Proof.
  revert p; induction es as [|x es IH]; intros p Hp; cbn [length] in Hp; [lia|]. destruct p as [|p]; cbn [set_nth firstn skipn tmin].
  - now cbn [min_opt].
  - rewrite IH by lia. apply min_opt_assoc.
Qed.
Lemma tmin_split es p d : (p < length es)%nat ->
  tmin es d = min_opt (tmin (firstn p es) d) (min_opt (if rr_bf (nth p es (mk_rr 0 bf_empty)) d then Some (rr_time (nth p es (mk_rr 0 bf_empty))) else None) (tmin (skipn (S p) es) d)).
Proof.
  revert p; induction es as [|x es IH]; intros p Hp; cbn [length] in Hp; [lia|]. destruct p as [|p]; cbn [nth firstn skipn tmin].
  - now cbn [min_opt].
  - rewrite (IH p) by lia. apply min_opt_assoc.
Qed.
Lemma min_opt_comm a b : min_opt a b = min_opt b a.
Proof. destruct a, b; cbn [min_opt]; f_equal; lia. Qed.

(** The remaining new days after the loop are those on which no entry is as good; the entries lose exactly the days on which the
    new time is better. *)
Lemma rr_loop_spec time es : forall i bf same over,
  only_days bf -> (forall e, In e es -> only_days (rr_bf e)) ->
  let '(es', bf', same', over', ret) := rr_loop time es i bf same over in
  length es' = length es /\ (forall e, In e es' -> only_days (rr_bf e)) /\ only_days bf' /\
  (forall d, bf' d = bf d && negb (match tmin es d with Some t => t <=? time | None => false end)) /\
  (forall d, min_opt (tmin es' d) (if bf' d then Some time else None) = min_opt (tmin es d) (if bf d then Some time else None)) /\
  (forall d, bf' d = true -> tmin es' d = None) /\
  (ret = true -> forall d, bf' d = false) /\
  (same' = same \/ exists p, same' = Some (i + p)%nat /\ (p < length es)%nat /\ rr_time (nth p es' (mk_rr 0 bf_empty)) = time) /\
  (over' = over \/ exists p, over' = Some (i + p)%nat /\ (p < length es)%nat /\ (forall d, rr_bf (nth p es' (mk_rr 0 bf_empty)) d = false)).
Proof.
  induction es as [|e es IH]; intros i bf same over Hb He; cbn [rr_loop].
  - split; [reflexivity|]. split; [intros e []|]. split; [exact Hb|]. split; [intros d; cbn [tmin]; now rewrite andb_true_r|].
    split; [reflexivity|]. split; [reflexivity|]. split; [discriminate|]. auto.
  - destruct (bfNone bf) eqn:EN.
    + pose proof (proj1 (bfNone_spec bf) EN) as N.
      assert (N' : forall d, bf d = false) by (intros d; destruct (bf d) eqn:E; auto; rewrite <- (N d (Hb d E)); now symmetry).
      split; [reflexivity|]. split; [exact He|]. split; [exact Hb|]. split; [intros d; now rewrite N'|].
      split; [reflexivity|]. split; [intros d Hd; rewrite N' in Hd; discriminate|]. auto.
    + set (better := time <? rr_time e). set (e' := if better then mk_rr (rr_time e) (bfAnd (rr_bf e) (bfNot bf)) else e).
      set (bf1 := if better then bf else bfAnd bf (bfNot (rr_bf e))).
      set (same1 := if negb better && (time =? rr_time e) then Some i else same).
      set (over1 := if bfNone (rr_bf e') then Some i else over).
      assert (Oe : only_days (rr_bf e)) by (apply He; now left).
      assert (NE : forall (a b : bitfield) d, only_days a -> bfAnd a (bfNot b) d = a d && negb (b d)).
      { intros a b d Ha. unfold bfAnd, bfNot. destruct (a d) eqn:E; [|reflexivity]. specialize (Ha d E). unfold is_day in Ha.
        assert (Q1 : (0 <=? d) = true) by (apply Z.leb_le; lia). assert (Q2 : (d <? 512) = true) by (apply Z.ltb_lt; lia). now rewrite Q1, Q2. }
      assert (Ob1 : only_days bf1).
      { unfold bf1. destruct better; [exact Hb|]. intros d Hd. rewrite NE in Hd by exact Hb. apply andb_true_iff in Hd as [Hd _]. auto. }
      assert (Oe' : only_days (rr_bf e')).
      { unfold e'. destruct better; [|exact Oe]. cbn [rr_bf]. intros d Hd. rewrite NE in Hd by exact Oe. apply andb_true_iff in Hd as [Hd _]. auto. }
      specialize (IH (S i) bf1 same1 over1 Ob1 (fun x Hx => He x (or_intror Hx))).
      change (rr_loop time es (S i) (if time <? rr_time e then bf else bfAnd bf (bfNot (rr_bf e))) _ _) with (rr_loop time es (S i) bf1 same1 over1).
      destruct (rr_loop time es (S i) bf1 same1 over1) as [[[[rest b'] s'] o'] ret]. cbv iota.
      destruct IH as (I1 & I2 & I3 & I4 & I5 & I6 & I7 & I8 & I9). fold better. fold e'.
      assert (EB : forall d, bf1 d = bf d && negb (rr_bf e d && (rr_time e <=? time))).
      { intros d. unfold bf1, better. destruct (Z.ltb_spec time (rr_time e)) as [L|L].
        - assert (Q : (rr_time e <=? time) = false) by (apply Z.leb_gt; lia). now rewrite Q, andb_false_r, andb_true_r.
        - assert (Q : (rr_time e <=? time) = true) by (apply Z.leb_le; lia). rewrite Q, andb_true_r. now apply NE. }
      assert (EE : forall d, rr_bf e' d = rr_bf e d && negb (bf d && (time <? rr_time e))).
      { intros d. unfold e', better. destruct (Z.ltb_spec time (rr_time e)) as [L|L]; [|now rewrite andb_false_r, andb_true_r].
        cbn [rr_bf]. rewrite andb_true_r. now apply NE. }
      assert (ET : rr_time e' = rr_time e) by (unfold e'; destruct better; reflexivity).
      split; [cbn [length]; now rewrite I1|]. split; [intros x [<-|Hx]; auto|]. split; [exact I3|].
      split.
      { intros d. rewrite I4, EB. cbn [tmin]. destruct (bf d); [|reflexivity]. cbn [andb].
        destruct (rr_bf e d); cbn [andb min_opt]; [|reflexivity].
        destruct (Z.leb_spec (rr_time e) time) as [L|L]; cbn [negb andb].
        - destruct (tmin es d) as [u|].
          + assert (Q : (Z.min (rr_time e) u <=? time) = true) by (apply Z.leb_le; lia). now rewrite Q.
          + assert (Q : (rr_time e <=? time) = true) by (apply Z.leb_le; lia). now rewrite Q.
        - destruct (tmin es d) as [u|].
          + destruct (Z.leb_spec u time) as [L'|L'].
            * assert (Q : (Z.min (rr_time e) u <=? time) = true) by (apply Z.leb_le; lia). now rewrite Q.
            * assert (Q : (Z.min (rr_time e) u <=? time) = false) by (apply Z.leb_gt; lia). now rewrite Q.
          + assert (Q : (rr_time e <=? time) = false) by (apply Z.leb_gt; lia). now rewrite Q. }
      split.
      { intros d. cbn [tmin]. rewrite <- !min_opt_assoc. rewrite I5. rewrite EE, EB, ET.
        destruct (bf d); cbn [andb negb]; [|rewrite andb_true_r; reflexivity].
        destruct (rr_bf e d); cbn [andb negb]; [|reflexivity].
        destruct (Z.leb_spec (rr_time e) time) as [L|L].
        - assert (Q : (time <? rr_time e) = false) by (apply Z.ltb_ge; lia). rewrite Q. cbn [negb].
          destruct (tmin es d); cbn [min_opt]; f_equal; lia.
        - assert (Q : (time <? rr_time e) = true) by (apply Z.ltb_lt; lia). rewrite Q. cbn [negb].
          destruct (tmin es d); cbn [min_opt]; f_equal; lia. }
      split.
      { intros d Hd. cbn [tmin]. rewrite I6 by exact Hd.
        assert (B1 : bf1 d = true) by (rewrite I4 in Hd; apply andb_true_iff in Hd; tauto). rewrite EB in B1. apply andb_true_iff in B1 as [B1 B2].
        rewrite EE, B1. cbn [andb]. destruct (rr_bf e d); [|reflexivity]. cbn [andb] in *. apply negb_true_iff, Z.leb_gt in B2.
        assert (Q : (time <? rr_time e) = true) by (apply Z.ltb_lt; lia). rewrite Q. reflexivity. }
      split; [exact I7|]. split.
      { destruct I8 as [->|(p & -> & Hp & HT)].
        - unfold same1. destruct (negb better && (time =? rr_time e)) eqn:Q; [|now left]. right. exists 0%nat.
          split; [f_equal; lia|]. split; [cbn; lia|]. cbn [nth]. apply andb_true_iff in Q as [_ Q]. apply Z.eqb_eq in Q. congruence.
        - right. exists (S p). split; [f_equal; lia|]. split; [cbn; lia|]. exact HT. }
      { destruct I9 as [->|(p & -> & Hp & HT)].
        - unfold over1. destruct (bfNone (rr_bf e')) eqn:Q; [|now left]. right. exists 0%nat.
          split; [f_equal; lia|]. split; [cbn; lia|]. cbn [nth]. intros d.
          pose proof (proj1 (bfNone_spec _) Q) as N. destruct (rr_bf e' d) eqn:E; [|reflexivity]. rewrite <- (N d (Oe' d E)). now symmetry.
        - right. exists (S p). split; [f_equal; lia|]. split; [cbn; lia|]. exact HT. }
Qed.

(** One insertion: the minimum of every day becomes the minimum of the old one and the new time; the reported days are those on
    which the new time is smaller than everything before. *)
Lemma rr_update_list_spec es time bf :
  only_days bf -> (forall e, In e es -> only_days (rr_bf e)) ->
  let (es', impr) := rr_update_list es time bf in
  (forall e, In e es' -> only_days (rr_bf e)) /\
  (forall d, tmin es' d = min_opt (tmin es d) (if bf d then Some time else None)) /\
  (forall d, impr d = bf d && match tmin es d with Some t => time <? t | None => true end).
Proof.
  intros Hb He. unfold rr_update_list. pose proof (rr_loop_spec time es 0 bf None None Hb He) as S.
  destruct (rr_loop time es 0 bf None None) as [[[[es' bf'] same] over] ret].
  destruct S as (S1 & S2 & S3 & S4 & S5 & S6 & S7 & S8 & S9).
  assert (NE : (forall d, bf' d = false) ->
    (forall d, tmin es' d = min_opt (tmin es d) (if bf d then Some time else None)) /\
    (forall d, bf_empty d = bf d && match tmin es d with Some t => time <? t | None => true end)).
  { intros N. split.
    - intros d. rewrite <- S5, N. now destruct (tmin es' d).
    - intros d. specialize (N d). rewrite S4 in N. unfold bf_empty. symmetry. destruct (bf d); [|reflexivity]. cbn [andb] in *.
      destruct (tmin es d) as [t|]; [|discriminate]. apply negb_false_iff, Z.leb_le in N. apply Z.ltb_ge. lia. }
  destruct ret; [split; [exact S2|apply NE; auto]|].
  destruct (bfNone bf') eqn:EN.
  { split; [exact S2|]. apply NE. intros d. pose proof (proj1 (bfNone_spec _) EN) as N.
    destruct (bf' d) eqn:E; [|reflexivity]. rewrite <- (N d (S3 d E)). now symmetry. }
  assert (IM : forall d, bf' d = bf d && match tmin es d with Some t => time <? t | None => true end).
  { intros d. rewrite S4. destruct (tmin es d) as [t|]; [|reflexivity]. f_equal. now rewrite <- Z.ltb_antisym. }
  assert (SETIN : forall p x e, In e (set_nth es' p x) -> e = x \/ In e es') by (intros p x e; apply set_nth_in).
  destruct same as [p|].
  - destruct S8 as [S8|(q & Eq & Hq & HT)]; [discriminate|]. injection Eq as ->. cbn [Nat.add]. clear S8 || idtac.
    split; [|split; [|exact IM]].
    + intros e Hi. apply SETIN in Hi as [->|Hi]; [|auto]. cbn [rr_bf]. intros d Hd. unfold bfOr in Hd. apply orb_true_iff in Hd as [Hd|Hd]; [|auto].
      eapply S2; [apply nth_In|exact Hd]. lia.
    + intros d. rewrite <- S5. rewrite tmin_set by lia. cbn [rr_bf rr_time]. rewrite (tmin_split es' q d) by lia. rewrite HT. unfold bfOr.
      destruct (rr_bf (nth q es' (mk_rr 0 bf_empty)) d), (bf' d), (tmin (firstn q es') d), (tmin (skipn (S q) es') d); cbn [orb min_opt]; f_equal; lia.
  - destruct over as [p|].
    + destruct S9 as [S9|(q & Eq & Hq & HT)]; [discriminate|]. injection Eq as ->. cbn [Nat.add].
      split; [|split; [|exact IM]].
      * intros e Hi. apply SETIN in Hi as [->|Hi]; auto.
      * intros d. rewrite <- S5. rewrite tmin_set by lia. cbn [rr_bf rr_time]. rewrite (tmin_split es' q d) by lia. rewrite HT.
        destruct (bf' d), (tmin (firstn q es') d), (tmin (skipn (S q) es') d); cbn [min_opt]; f_equal; lia.
    + split; [|split; [|exact IM]].
      * intros e Hi. apply in_app_or in Hi as [Hi|[<-|[]]]; auto.
      * intros d. rewrite <- S5, tmin_app. cbn [tmin rr_bf rr_time]. destruct (bf' d); cbn [min_opt]; reflexivity.
Qed.

(** A history of insertions into one location's list. *)
Definition rr_history (hs : list (Z * bitfield)) : list rr_entry := fold_left (fun es h => fst (rr_update_list es (fst h) (snd h))) hs [].
Fixpoint tmin_hist (hs : list (Z * bitfield)) (d : Z) : option Z :=
  match hs with [] => None | h :: hs' => min_opt (if snd h d then Some (fst h) else None) (tmin_hist hs' d) end.
Lemma rr_history_tmin hs : Forall (fun h => only_days (snd h)) hs ->
  (forall e, In e (rr_history hs) -> only_days (rr_bf e)) /\ forall d, tmin (rr_history hs) d = tmin_hist hs d.
Proof.
  assert (G : forall hs es, Forall (fun h => only_days (snd h)) hs -> (forall e, In e es -> only_days (rr_bf e)) ->
    (forall e, In e (fold_left (fun es h => fst (rr_update_list es (fst h) (snd h))) hs es) -> only_days (rr_bf e)) /\
    forall d, tmin (fold_left (fun es h => fst (rr_update_list es (fst h) (snd h))) hs es) d = min_opt (tmin es d) (tmin_hist hs d)).
  { clear hs. induction hs as [|h hs IH]; intros es Hh He; cbn [fold_left tmin_hist].
    - split; [exact He|]. intros d. now destruct (tmin es d).
    - inversion Hh as [|h0 hs0 H1 H2 E]; subst. pose proof (rr_update_list_spec es (fst h) (snd h) H1 He) as S.
      destruct (rr_update_list es (fst h) (snd h)) as [es' impr]. destruct S as (S1 & S2 & S3). cbn [fst].
      destruct (IH es' H2 S1) as [J1 J2]. split; [exact J1|]. intros d. rewrite J2, S2. symmetry. apply min_opt_assoc. }
  intros H. destruct (G hs [] H (fun e (F : In e []) => match F with end)) as [A B]. split; [exact A|].
  intros d. unfold rr_history. rewrite B. reflexivity.
Qed.
Lemma tmin_hist_spec hs d : match tmin_hist hs d with Some t => is_min_on hs d t | None => nothing_on hs d end.
Proof.
  pose proof (tmin_spec (map (fun h => mk_rr (fst h) (snd h)) hs) d) as S.
  assert (E : pairs (map (fun h => mk_rr (fst h) (snd h)) hs) = hs).
  { unfold pairs. rewrite map_map. cbn [rr_time rr_bf]. rewrite <- (map_id hs) at 2. apply map_ext. now intros []. }
  assert (E2 : tmin (map (fun h => mk_rr (fst h) (snd h)) hs) d = tmin_hist hs d).
  { clear. induction hs as [|h hs IH]; cbn [map tmin tmin_hist rr_bf rr_time]; [reflexivity|]. now rewrite IH. }
  rewrite E2, E in S. exact S.
Qed.
Lemma is_min_unique hs d t t' : is_min_on hs d t -> is_min_on hs d t' -> t = t'.
Proof. intros [(b & I & B) M] [(b' & I' & B') M']. specialize (M t' b' I' B'). specialize (M' t b I B). lia. Qed.

(** After any history of insertions (times with day sets) for a location: on every day the smallest time of the table is the
    smallest inserted time valid on that day, and no time is in the table for a day iff none was inserted for it. *)
Theorem C38_table_keeps_minimum_of_every_day :
  forall hs d, Forall (fun h => only_days (snd h)) hs ->
    (forall t, is_min_on (pairs (rr_history hs)) d t <-> is_min_on hs d t) /\
    (nothing_on (pairs (rr_history hs)) d <-> nothing_on hs d).
Proof.
  intros hs d H. destruct (rr_history_tmin hs H) as [_ E]. specialize (E d).
  pose proof (tmin_spec (rr_history hs) d) as S1. pose proof (tmin_hist_spec hs d) as S2. rewrite E in S1.
  destruct (tmin_hist hs d) as [m|].
  - split.
    + intros t. split; intros M.
      * rewrite (is_min_unique _ _ _ _ M S1). exact S2.
      * rewrite (is_min_unique _ _ _ _ M S2). exact S1.
    + split; intros N; exfalso.
      * destruct S1 as [(b & I & B) _]. rewrite (N _ _ I) in B. discriminate.
      * destruct S2 as [(b & I & B) _]. rewrite (N _ _ I) in B. discriminate.
  - split.
    + intros t. split; intros [(b & I & B) _]; exfalso; [rewrite (S1 _ _ I) in B|rewrite (S2 _ _ I) in B]; discriminate.
    + tauto.
Qed.
(** An insertion reports exactly the days on which its time is smaller than all times inserted before. *)
Theorem C38_reported_improvement :
  forall hs time bf d, Forall (fun h => only_days (snd h)) hs -> only_days bf ->
    snd (rr_update_list (rr_history hs) time bf) d = true <->
      bf d = true /\ forall t b, In (t, b) hs -> b d = true -> time < t.
Proof.
  intros hs time bf d H Hb. destruct (rr_history_tmin hs H) as [O E].
  pose proof (rr_update_list_spec (rr_history hs) time bf Hb O) as S. destruct (rr_update_list (rr_history hs) time bf) as [es' impr].
  destruct S as (_ & _ & S3). cbn [snd]. rewrite S3, E. pose proof (tmin_hist_spec hs d) as M. rewrite andb_true_iff.
  destruct (tmin_hist hs d) as [m|].
  - destruct M as [(b0 & I0 & B0) M]. rewrite Z.ltb_lt. split; intros [A B]; split; auto.
    + intros t b I B'. specialize (M t b I B'). lia.
    + eapply B; eauto.
  - split; intros [A B]; split; auto. intros t b I B'. rewrite (M t b I) in B'. discriminate.
Qed.
(** Locations do not affect each other. *)
Theorem C38_other_locations_unchanged :
  forall t l time bf l', l' <> l -> fst (rr_update t l time bf) l' = t l'.
Proof.
  intros t l time bf l' H. unfold rr_update. destruct (rr_update_list (t l) time bf) as [es i]. cbn [fst]. unfold upd.
  destruct (Nat.eqb_spec l' l); [contradiction|reflexivity].
Qed.
Example C38_example :
  let days (l : list Z) : bitfield := fun d => existsb (Z.eqb d) l in
  let hs := [(600, days [1; 2; 3]); (500, days [2]); (700, days [1; 4]); (500, days [3; 1]); (400, days [4])] in
  Forall (fun h => only_days (snd h)) hs /\ map (tmin (rr_history hs)) [0; 1; 2; 3; 4] = [None; Some 500; Some 500; Some 500; Some 400] /\
  length (rr_history hs) = 3%nat /\ filter (snd (rr_update_list (rr_history hs) 450 (days [0; 1; 4]))) [0; 1; 2; 3; 4] = [0; 1].
Proof.
  cbv zeta. split.
  - assert (D : forall l, Forall is_day l -> only_days (fun d => existsb (Z.eqb d) l)).
    { intros l H d E. apply existsb_exists in E as (x & Hx & E). apply Z.eqb_eq in E. subst x. rewrite Forall_forall in H. auto. }
    repeat apply Forall_cons; try apply Forall_nil; cbn [snd]; apply D; repeat apply Forall_cons; try apply Forall_nil; unfold is_day; lia.
  - vm_compute. auto.
Qed.
Print Assumptions C37_query_returns_best_recorded_segment.
Print Assumptions C38_table_keeps_minimum_of_every_day.
Print Assumptions C38_reported_improvement.
