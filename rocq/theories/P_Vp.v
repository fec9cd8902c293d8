(** C66: vehicle positions. *)
From Coq Require Import List ZArith Lia Bool Arith.
From Verif Require Import Base Time_Model Calendar_Model Query_Model Rt_Model Rt_Proofs P_Rt P_RtDelay P_RtMsg Vp_Model.
Import ListNotations.
Local Open Scope Z_scope.

(** * The loops *)
Lemma ev_arr_at k : (0 < k)%nat -> ev_stop (2 * k - 1) = k /\ ev_arr (2 * k - 1) = true.
Proof.
  intros H. unfold ev_stop, ev_arr. replace (S (2 * k - 1)) with (2 * k)%nat by lia. rewrite Nat.div2_double. split; [reflexivity|].
  replace (2 * k - 1)%nat with (S (2 * (k - 1)))%nat by lia. rewrite Nat.odd_succ. apply Nat.even_spec. now exists (k - 1)%nat.
Qed.
Section Pos.
  Variables (tt : stt) (x : run) (i : nat) (t : nat) (day : Z) (base : Z) (n : nat) (delay : Z).
  Hypothesis HX : r_t x = Some (t, day).
  (** The shifted schedule. *)
  Let C (j : nat) : Z := clamp16 (s_event tt t day (ev_stop j) (ev_arr j) + delay - base).
  Notation A r := (nth i (rt_times r) []).
  Notation ok r := (okr i base n r).
  Lemma put_touch r k arr : touch i r (put tt x i delay r k arr).
  Proof. apply touch_update_delay. Qed.
  Lemma put_eq r k arr J : ok r -> ev_idx k arr = J -> ev_stop J = k -> ev_arr J = arr -> A (put tt x i delay r k arr) = set_nth (A r) J (C J).
  Proof.
    intros (H1 & H2 & H3) EJ E1 E2. unfold put, update_delay. rewrite HX. cbn [fst]. unfold update_time. cbn [set_times rt_times]. rewrite nth_set_nth_eq by auto.
    rewrite EJ. f_equal. unfold rt_unix_to_delta, C. rewrite E1, E2, H3. reflexivity.
  Qed.
  Lemma put_dep r k : ok r -> A (put tt x i delay r k false) = set_nth (A r) (2 * k) (C (2 * k)).
  Proof. intros H. destruct (ev_stop_dep k). apply put_eq; auto. unfold ev_idx. lia. Qed.
  Lemma put_arr r k : ok r -> (0 < k)%nat -> A (put tt x i delay r k true) = set_nth (A r) (2 * k - 1) (C (2 * k - 1)).
  Proof. intros H Hk. destruct (ev_arr_at k Hk). apply put_eq; auto. unfold ev_idx. lia. Qed.
  Lemma ok_put r k arr : ok r -> ok (put tt x i delay r k arr).
  Proof. intros H. eapply okr_touch; [apply put_touch|exact H]. Qed.
  Lemma set_at (l : list Z) J v j : (J < length l)%nat -> nth j (set_nth l J v) 0 = if Nat.eqb J j then v else nth j l 0.
  Proof. intros H. rewrite nth_set_nth. rewrite (proj2 (Nat.ltb_lt _ _) H), andb_true_r. reflexivity. Qed.
  Lemma ok_len r : ok r -> length (A r) = (2 * n - 2)%nat.
  Proof. intros (_ & H & _). exact H. Qed.

  Lemma forward_spec m : forall first r, ok r -> (first + m <= n - 1)%nat ->
    touch i r (forward tt x i delay m first r) /\
    forall j, nth j (A (forward tt x i delay m first r)) 0 = if (2 * first <=? j)%nat && (j <? 2 * (first + m))%nat then C j else nth j (A r) 0.
  Proof.
    induction m as [|m IH]; intros first r OK H; cbn [forward].
    - split; [apply touch_refl|]. intros j. destruct (Nat.leb_spec (2 * first) j), (Nat.ltb_spec j (2 * (first + 0))); cbn; try reflexivity. lia.
    - set (r1 := put tt x i delay r first false). set (r2 := put tt x i delay r1 (S first) true).
      assert (O1 : ok r1) by (apply ok_put; exact OK). assert (O2 : ok r2) by (apply ok_put; exact O1).
      destruct (IH (S first) r2 O2 ltac:(lia)) as (T & E). split.
      + eapply touch_trans; [apply put_touch|]. eapply touch_trans; [apply put_touch|]. exact T.
      + intros j. rewrite E. unfold r2. rewrite put_arr by (auto; lia). rewrite set_at by (rewrite (ok_len r1 O1); lia).
        unfold r1. rewrite put_dep by auto. rewrite set_at by (rewrite (ok_len r OK); lia).
        destruct (Nat.leb_spec (2 * S first) j), (Nat.ltb_spec j (2 * (S first + m))), (Nat.leb_spec (2 * first) j), (Nat.ltb_spec j (2 * (first + S m))),
          (Nat.eqb_spec (2 * S first - 1) j), (Nat.eqb_spec (2 * first) j); cbn [andb]; try lia; try reflexivity; subst; reflexivity.
  Qed.

  (** Back to the last event that need not be moved. *)
  Definition moved_back (T T' : list Z) (e m : nat) : Prop :=
    (m <= e)%nat /\ (forall j, nth j T' 0 = if (m <=? j)%nat && (j <? e)%nat then C j else nth j T 0) /\
    (m = 0%nat \/ nth (m - 1) T 0 <= nth m T' 0) /\ (forall j, (m <= j < e)%nat -> nth (S j) T' 0 < nth j T 0).
  Lemma moved_none T e : e = 0%nat \/ nth (e - 1) T 0 <= nth e T 0 -> moved_back T T e e.
  Proof.
    intros H. split; [lia|]. split; [|split; [exact H|intros; lia]]. intros j. destruct (Nat.leb_spec e j), (Nat.ltb_spec j e); cbn; try reflexivity. lia.
  Qed.
  Lemma moved_step T T' e m : moved_back (set_nth T e (C e)) T' e m -> (S e < length T)%nat -> nth (S e) T 0 < nth e T 0 -> moved_back T T' (S e) m.
  Proof.
    intros (H1 & H2 & H3 & H4) HL Hv.
    assert (V : forall j, nth j (set_nth T e (C e)) 0 = if Nat.eqb e j then C e else nth j T 0) by (intros j; apply set_at; lia).
    split; [lia|]. split; [|split].
    - intros j. rewrite H2, V. destruct (Nat.leb_spec m j), (Nat.ltb_spec j e), (Nat.ltb_spec j (S e)), (Nat.eqb_spec e j); cbn [andb]; try lia; try reflexivity. now subst.
    - destruct H3 as [H3|H3]; [now left|]. destruct (Nat.eq_dec m 0) as [->|Hm]; [now left|]. right. rewrite V in H3. destruct (Nat.eqb_spec e (m - 1)); [lia|]. exact H3.
    - intros j Hj. destruct (Nat.eq_dec j e) as [->|N].
      + rewrite H2, V. destruct (Nat.leb_spec m (S e)), (Nat.ltb_spec (S e) e), (Nat.eqb_spec e (S e)); cbn [andb]; try lia.
      + specialize (H4 j ltac:(lia)). rewrite V in H4. destruct (Nat.eqb_spec e j); [lia|]. exact H4.
  Qed.
  Lemma backward_spec : forall curr r, ok r -> (curr <= n - 1)%nat ->
    touch i r (backward tt x i delay curr r) /\ exists m, moved_back (A r) (A (backward tt x i delay curr r)) (2 * curr - 1) m.
  Proof.
    induction curr as [|prev IH]; intros r OK H; cbn [backward].
    - split; [apply touch_refl|]. exists 0%nat. apply moved_none. now left.
    - unfold unix_event_time, event_time, ev_idx. replace (prev * 2 - 0)%nat with (2 * prev)%nat by lia. replace (S prev * 2 - 1)%nat with (S (2 * prev)) by lia.
      replace (2 * S prev - 1)%nat with (S (2 * prev)) by lia. pose proof (ok_len r OK) as HL.
      destruct (Z.ltb_spec (rt_base r + nth (S (2 * prev)) (A r) 0) (rt_base r + nth (2 * prev) (A r) 0)) as [L|L].
      2:{ split; [apply touch_refl|]. exists (S (2 * prev)). apply moved_none. right. replace (S (2 * prev) - 1)%nat with (2 * prev)%nat by lia. lia. }
      set (r1 := put tt x i delay r prev false). assert (O1 : ok r1) by (apply ok_put; exact OK).
      assert (E1 : A r1 = set_nth (A r) (2 * prev) (C (2 * prev))) by (apply put_dep; exact OK).
      destruct (Nat.eqb_spec prev 0) as [->|Hp]; cbn [negb andb].
      { split; [apply put_touch|]. exists 0%nat. apply moved_step; [|cbn; lia|cbn [Nat.mul Nat.add]; cbn [Nat.mul Nat.add] in L; lia]. cbn [Nat.mul Nat.add] in E1 |- *. rewrite E1. apply moved_none. now left. }
      replace (prev * 2 - 1)%nat with (2 * prev - 1)%nat by lia.
      destruct (Z.ltb_spec (rt_base r1 + nth (2 * prev) (A r1) 0) (rt_base r1 + nth (2 * prev - 1) (A r1) 0)) as [L1|L1].
      + set (r2 := put tt x i delay r1 prev true). assert (O2 : ok r2) by (apply ok_put; exact O1).
        assert (E2 : A r2 = set_nth (A r1) (2 * prev - 1) (C (2 * prev - 1))) by (apply put_arr; [exact O1|lia]).
        destruct (IH r2 O2 ltac:(lia)) as (T & m & M). split; [eapply touch_trans; [apply put_touch|]; eapply touch_trans; [apply put_touch|]; exact T|].
        exists m. apply moved_step; [|lia|lia]. rewrite <- E1. replace (2 * prev)%nat with (S (2 * prev - 1)) by lia. apply moved_step.
        * rewrite <- E2. exact M.
        * rewrite (ok_len r1 O1). lia.
        * replace (S (2 * prev - 1)) with (2 * prev)%nat by lia. lia.
      + split; [apply put_touch|]. exists (2 * prev)%nat. apply moved_step; [|lia|lia]. rewrite <- E1. apply moved_none. right. lia.
  Qed.
End Pos.

(** * One position *)
(** The event the vehicle is observed at: the arrival at stop [k], or the departure of the first stop. *)
Definition observed (k : nat) : nat := (2 * k - 1)%nat.
Lemma ev_stop_observed k : ev_stop (observed k) = k /\ ev_arr (observed k) = negb (Nat.eqb k 0).
Proof. unfold observed. destruct k as [|k]; [split; reflexivity|]. destruct (ev_arr_at (S k) ltac:(lia)) as [-> ->]. split; reflexivity. Qed.
Definition delay_at (tt : stt) (t : nat) (day : Z) (k : nat) (time : Z) : Z :=
  to_i16 (time - s_event tt t day (ev_stop (observed k)) (ev_arr (observed k))).

Lemma position_spec tt r i t day base k time r' T' : let n := length (s_seq tt t) in
  r' = position_at tt r (mk_run (Some (t, day)) 0 n (Some i)) i t day k time -> T' = nth i (rt_times r') [] ->
  okr i base n r -> (2 <= n)%nat -> (k < n)%nat ->
  let C j := clamp16 (s_event tt t day (ev_stop j) (ev_arr j) + delay_at tt t day k time - base) in
  let T := nth i (rt_times r) [] in
  touch i r r' /\ rt_stops r' = rt_stops r /\ exists m, (m <= observed k)%nat /\
    (forall j, (j < 2 * n - 2)%nat -> nth j T' 0 = if (m <=? j)%nat then C j else nth j T 0) /\
    (m = 0%nat \/ nth (m - 1) T 0 <= C m) /\ (forall j, (m <= j < observed k)%nat -> C (S j) < nth j T 0).
Proof.
  intros n Hr' HT' OK Hn Hk C T. unfold position_at in Hr'. destruct (ev_stop_observed k) as [EO1 EO2].
  assert (ED : to_i16 (time - s_event tt t day k (negb (Nat.eqb k 0))) = delay_at tt t day k time) by (unfold delay_at; rewrite EO1, EO2; reflexivity).
  cbv zeta in Hr'. rewrite ED in Hr'. fold n in Hr'. set (delay := delay_at tt t day k time) in *. set (x := mk_run (Some (t, day)) 0 n (Some i)) in *. 
  set (r1 := if Nat.eqb k 0 then r else put tt x i delay r k true) in *.
  assert (O1 : okr i base n r1) by (unfold r1; destruct (Nat.eqb k 0); [exact OK|apply ok_put; exact OK]).
  assert (T1 : touch i r r1) by (unfold r1; destruct (Nat.eqb k 0); [apply touch_refl|apply put_touch]).
  destruct (forward_spec tt x i t day base n delay eq_refl (n - 1 - k) k r1 O1 ltac:(lia)) as (T2 & E2).
  set (r2 := forward tt x i delay (n - 1 - k) k r1) in *. assert (O2 : okr i base n r2) by (eapply okr_touch; [exact T2|exact O1]).
  destruct (backward_spec tt x i t day base n delay eq_refl k r2 O2 ltac:(lia)) as (T3 & m & M1 & M2 & M3 & M4). rewrite <- Hr' in T3, M2, M3, M4. rewrite <- HT' in M2, M3, M4.
  assert (E : forall j, (j < 2 * n - 2)%nat -> nth j (nth i (rt_times r2) []) 0 = if (observed k <=? j)%nat then C j else nth j T 0).
  { intros j Hj. rewrite E2. unfold observed, r1. destruct (Nat.eqb_spec k 0) as [Ek|Ek].
    - rewrite Ek. cbn [Nat.mul Nat.add Nat.sub Nat.leb andb]. destruct (Nat.ltb_spec j (n - 1 - 0 + (n - 1 - 0 + 0))); [reflexivity|lia].
    - rewrite (put_arr tt x i t day base n delay eq_refl r k OK ltac:(lia)). rewrite set_at by (rewrite (ok_len _ _ _ _ OK); lia). fold T.
      destruct (Nat.leb_spec (2 * k) j), (Nat.ltb_spec j (2 * (k + (n - 1 - k)))), (Nat.leb_spec (2 * k - 1) j), (Nat.eqb_spec (2 * k - 1) j); cbn [andb]; try lia; try reflexivity. now subst. }
  assert (E' : forall j, (j < 2 * n - 2)%nat -> nth j T' 0 = if (m <=? j)%nat then C j else nth j T 0).
  { intros j Hj. rewrite M2. fold (observed k) in M1 |- *. destruct (Nat.leb_spec m j), (Nat.ltb_spec j (observed k)); cbn [andb]; try reflexivity; rewrite E by exact Hj; destruct (Nat.leb_spec (observed k) j); try lia; reflexivity. }
  assert (HO : (observed k < 2 * n - 2)%nat) by (unfold observed; lia).
  fold (observed k) in M1, M3, M4.
  split; [eapply touch_trans; [exact T1|]; eapply touch_trans; [exact T2|exact T3]|]. split.
  { assert (PS : forall q a b, rt_stops (put tt x i delay q a b) = rt_stops q) by reflexivity.
    assert (FS : forall c f q, rt_stops (forward tt x i delay c f q) = rt_stops q) by (induction c; intros; cbn [forward]; [reflexivity|]; rewrite IHc; reflexivity).
    assert (BS : forall c q, rt_stops (backward tt x i delay c q) = rt_stops q).
    { induction c; intros; cbn [backward]; [reflexivity|]. destruct (_ <? _); [|reflexivity]. cbv zeta. destruct (negb _ && _); [|reflexivity]. rewrite IHc. reflexivity. }
    rewrite Hr', BS. unfold r2. rewrite FS. unfold r1. destruct (Nat.eqb k 0); reflexivity. }
  exists m. split; [exact M1|]. split; [exact E'|]. split.
  - destruct (Nat.eq_dec m 0) as [->|Hm]; [now left|right]. destruct M3 as [M3|M3]; [lia|]. rewrite E' in M3 by lia. rewrite E in M3 by lia.
    rewrite Nat.leb_refl in M3. destruct (Nat.leb_spec (observed k) (m - 1)); [lia|]. exact M3.
  - intros j Hj. specialize (M4 j Hj). rewrite E' in M4 by lia. rewrite E in M4 by lia.
    destruct (Nat.leb_spec m (S j)), (Nat.leb_spec (observed k) j); try lia.
Qed.

(** * Histories *)
(** The scheduled times of a trip do not go back; it has two stops. *)
Definition forward_schedule (tt : stt) (t : nat) (day : Z) : Prop := (2 <= length (s_seq tt t))%nat /\
  forall j, (S j < 2 * length (s_seq tt t) - 2)%nat -> s_event tt t day (ev_stop j) (ev_arr j) <= s_event tt t day (ev_stop (S j)) (ev_arr (S j)).
Definition entity_ok (tt : stt) (e : entity) : Prop := match e with E_trip _ => True | E_position _ t day _ _ => forward_schedule tt t day end.

Lemma adjacent_nondecreasing l : (forall j, (S j < length l)%nat -> nth j l 0 <= nth (S j) l 0) -> nondecreasing l.
Proof.
  intros H a b Hab. induction b as [|b IH]; [replace a with 0%nat by lia; lia|]. destruct (Nat.eq_dec a (S b)) as [->|N]; [lia|].
  specialize (IH ltac:(lia)). specialize (H b ltac:(lia)). lia.
Qed.
Lemma clamp16_mono a b : a <= b -> clamp16 a <= clamp16 b.
Proof. unfold clamp16. lia. Qed.

(** The scheduled or real-time time of an event before the entity. *)
Definition time_before (tt : stt) (r : rtt) (t : nat) (day base : Z) (j : nat) : Z :=
  match resolve_rt r (t, day) with
  | Some i => nth j (nth i (rt_times r) []) 0
  | None => clamp16 (s_event tt t day (ev_stop j) (ev_arr j) - base)
  end.
(** The state in which the real-time vehicle exists. *)
Definition with_twin (tt : stt) (r : rtt) (src t : nat) (day : Z) : rtt * nat :=
  let x := resolve_rt_run r (mk_run (Some (t, day)) 0 0 None) 0 src in
  match r_rt x with Some i => (r, i) | None => add_rt_transport tt r src (Some (t, day)) [] [] None end.
Lemma twin_spec tt base r src t day r1 i : msg_inv tt base r -> forward_schedule tt t day -> with_twin tt r src t day = (r1, i) ->
  msg_inv tt base r1 /\ resolve_rt r1 (t, day) = Some i /\ okr i base (length (s_seq tt t)) r1 /\
  (forall j, (j < 2 * length (s_seq tt t) - 2)%nat -> nth j (nth i (rt_times r1) []) 0 = time_before tt r t day base j) /\
  (forall i', (i' < length (rt_times r))%nat -> nth i' (rt_times r1) [] = nth i' (rt_times r) [] /\ nth i' (rt_stops r1) [] = nth i' (rt_stops r) []) /\
  (resolve_rt r (t, day) = Some i \/ i = length (rt_times r)).
Proof.
  intros [RI RG TL RB] [HN HF] HW. destruct RI as [A B C D E]. unfold with_twin, resolve_rt_run in HW. cbn [r_t] in HW. unfold time_before, resolve_rt in *.
  change (@lookup_find) with lookup_find in *. destruct (lookup_find (rt_lookup r) (t, day)) as [i0|] eqn:El; cbn [r_rt] in HW.
  - injection HW as <- <-. destruct (TL t day i0 El) as [T1 T2]. split; [constructor; [constructor|..]; auto|]. split; [exact El|].
    split; [split; [lia|split; [unfold ts; rewrite C, T2; reflexivity|exact RB]]|]. split; [reflexivity|]. split; [split; reflexivity|now left].
  - pose proof (add_frame tt r src (Some (t, day)) [] [] None A B) as F.
    pose proof (add_scheduled_times tt r src t day A B HN) as G.
    pose proof (ranged_add_scheduled tt r src (t, day) RG) as RG1.
    pose proof (add_scheduled_len tt r src (t, day) A B) as GL.
    pose proof (add_lookup_scheduled tt r src (t, day) El E) as GE.
    assert (L : let (r', i) := add_rt_transport tt r src (Some (t, day)) [] [] None in rt_lookup r' = rt_lookup r ++ [((t, day), i)]).
    { unfold add_rt_transport. cbn [rt_lookup]. unfold lookup_emplace. change (@lookup_find) with lookup_find. rewrite El. reflexivity. }
    change (@Some transport (t, day)) with (@Some (nat * Z) (t, day)) in *.
    rewrite HW in F, G, RG1, GL, GE, L. destruct F as (F1 & F2 & F3 & F4 & F5 & F6). destruct G as (G1 & G2 & G3). cbn [fst] in RG1.
    assert (O : okr i base (length (s_seq tt t)) r1) by (split; [lia|split; [unfold ts; rewrite GL, G1; reflexivity|congruence]]).
    split; [|split; [exact (G2 El)|split; [exact O|split; [intros j Hj; rewrite G3, RB by exact Hj; reflexivity|split; [intros i' Hi'; apply F6; lia|right; lia]]]]].
    constructor; [constructor; try congruence| | |congruence].
    + intros j. destruct (Nat.lt_trichotomy j i) as [Hj|[->|Hj]].
      * destruct (F6 j Hj) as [-> ->]. apply C.
      * exact GL.
      * rewrite !nth_overflow by lia. reflexivity.
    + intros j. destruct (Nat.lt_trichotomy j i) as [Hj|[->|Hj]].
      * destruct (F6 j Hj) as [-> _]. apply D.
      * apply adjacent_nondecreasing. intros j Hj. rewrite GL, G1 in Hj. rewrite !G3 by lia. apply clamp16_mono. specialize (HF j Hj). lia.
      * rewrite nth_overflow by lia. apply nondecreasing_nil.
    + exact GE.
    + exact RG1.
    + intros t' d' j Hl. rewrite L, lookup_find_app in Hl by exact El. destruct (transport_eqb_spec (t, day) (t', d')) as [E'|Hn].
      * injection E' as <- <-. injection Hl as <-. split; [lia|]. rewrite G1. reflexivity.
      * destruct (TL t' d' j Hl) as [T1 T2]. split; [lia|]. destruct (F6 j ltac:(lia)) as [_ ->]. exact T2.
Qed.
Lemma handle_twin tt r src t day near time : handle_vehicle_position tt r src t day near time =
  let (r1, i) := with_twin tt r src t day in
  match find_near near (s_seq tt t) with None => r1 | Some k => position_at tt r1 (mk_run (Some (t, day)) 0 (length (s_seq tt t)) (Some i)) i t day k time end.
Proof. reflexivity. Qed.
Lemma find_near_spec near words : match find_near near words with
  | Some k => (k < length words)%nat /\ near (word_loc (nth k words 0)) = true /\ (forall k', (k' < k)%nat -> near (word_loc (nth k' words 0)) = false)
  | None => forall k, (k < length words)%nat -> near (word_loc (nth k words 0)) = false
  end.
Proof.
  induction words as [|w ws IH]; cbn [find_near]; [cbn; lia|]. destruct (near (word_loc w)) eqn:E.
  - split; [cbn; lia|]. split; [exact E|]. intros k' Hk'. lia.
  - destruct (find_near near ws) as [k|]; cbn [option_map].
    + destruct IH as (I1 & I2 & I3). split; [cbn; lia|]. split; [exact I2|]. intros [|k'] Hk'; [exact E|]. apply I3. lia.
    + intros [|k] Hk; [exact E|]. apply IH. cbn in Hk. lia.
Qed.
Lemma position_mi tt base r src t day near time : msg_inv tt base r -> forward_schedule tt t day -> msg_inv tt base (handle_vehicle_position tt r src t day near time).
Proof.
  intros MI HF. rewrite handle_twin. destruct (with_twin tt r src t day) as [r1 i] eqn:EW. destruct (twin_spec _ _ _ _ _ _ _ _ MI HF EW) as (MI1 & _ & O & _).
  pose proof (find_near_spec near (s_seq tt t)) as FN. destruct (find_near near (s_seq tt t)) as [k|]; [|exact MI1]. destruct FN as (Hk & _). destruct HF as (HN & HF).
  destruct (position_spec tt r1 i t day base k time _ _ eq_refl eq_refl O HN Hk) as (T & ES & m & M1 & M2 & M3 & _).
  set (r' := position_at _ _ _ _ _ _ _ _) in *. destruct MI1 as [[A B C D E] RG TL RB]. pose proof O as (O1 & O2 & O3). unfold ts in O2. destruct T.
  assert (HL : length (nth i (rt_times r') []) = (2 * length (s_seq tt t) - 2)%nat) by congruence.
  constructor; [constructor; try congruence| | |congruence].
  - intros j. rewrite ES. destruct (Nat.eq_dec j i) as [->|Hj]; [rewrite tc_tilen; apply C|rewrite tc_times by auto; apply C].
  - intros j. destruct (Nat.eq_dec j i) as [->|Hj]; [|rewrite tc_times by auto; apply D]. apply adjacent_nondecreasing. intros j Hj. rewrite HL in Hj. rewrite !M2 by lia.
    destruct (Nat.leb_spec m j), (Nat.leb_spec m (S j)); try lia.
    + apply clamp16_mono. specialize (HF j Hj). lia.
    + destruct M3 as [M3|M3]; [lia|]. replace (m - 1)%nat with j in M3 by lia. replace (S j) with m by lia. exact M3.
    + apply (D i). rewrite O2. lia.
  - intros t' j. rewrite tc_lookup, tc_static. apply E.
  - intros a b. destruct (Nat.eq_dec a i) as [->|Ha]; [|rewrite tc_times by auto; apply RG].
    destruct (Nat.lt_ge_cases b (2 * length (s_seq tt t) - 2)) as [Hb|Hb]; [|rewrite nth_overflow by lia; lia]. rewrite M2 by exact Hb. destruct (Nat.leb m b); [apply clamp16_range|apply RG].
  - intros t' d' j. rewrite tc_lookup, ES. apply TL.
Qed.
Lemma entities_mi tt base es : Forall (entity_ok tt) es -> forall r, msg_inv tt base r -> msg_inv tt base (apply_entities tt es r).
Proof.
  induction 1 as [|e es He _ IH]; intros r H; [exact H|]. cbn [apply_entities fold_left]. apply IH. destruct e; cbn [apply_entity]; [now apply apply_msg_mi|now apply position_mi].
Qed.

(** * Theorems *)
(** C66: after any history of trip updates, cancellations, added trips and vehicle positions, no real-time vehicle runs back in time. *)
Theorem C66_vehicles_run_forward_in_time : forall tt base es i k, Forall (entity_ok tt) es ->
  let r := apply_entities tt es (create_rt_timetable tt base) in
  let n := length (nth i (rt_stops r) []) in
  ((k + 1 < n)%nat -> unix_event_time r i k false <= unix_event_time r i (k + 1) true) /\
  ((0 < k)%nat -> (k + 1 < n)%nat -> unix_event_time r i k true <= unix_event_time r i k false).
Proof.
  intros tt base es i k H r n. pose proof (entities_mi tt base es H _ (create_mi tt base)) as [[A B C D E] _ _ _]. fold r in A, B, C, D, E. specialize (C i). specialize (D i). fold n in C.
  unfold unix_event_time, event_time, ev_idx. split.
  - intros Hk. apply Z.add_le_mono_l. apply D. lia.
  - intros H0 Hk. apply Z.add_le_mono_l. apply D. lia.
Qed.

(** C66: a position near the stop [k] (and no earlier one) of the trip, whatever came before: the vehicle's times from some event [m] on are
    the schedule moved by the delay observed at [k]; before [m] they are as before; [m] is the arrival at [k] unless events before it
    would be later than what follows them - then just those are moved as well.  No other vehicle changes. *)
Theorem C66_position : forall tt base es src t day near time k, Forall (entity_ok tt) es -> forward_schedule tt t day ->
  let n := length (s_seq tt t) in
  (k < n)%nat -> near (loc_at (s_seq tt t) k) = true -> (forall k', (k' < k)%nat -> near (loc_at (s_seq tt t) k') = false) ->
  let r := apply_entities tt es (create_rt_timetable tt base) in
  let r' := apply_entity tt r (E_position src t day near time) in
  let shifted j := clamp16 (s_event tt t day (ev_stop j) (ev_arr j) + delay_at tt t day k time - base) in
  let before := time_before tt r t day base in
  exists i, resolve_rt r' (t, day) = Some i /\
    (exists m, (m <= observed k)%nat /\
      (forall j, (j < 2 * n - 2)%nat -> nth j (nth i (rt_times r') []) 0 = if (m <=? j)%nat then shifted j else before j) /\
      (m = 0%nat \/ before (m - 1)%nat <= shifted m) /\ (forall j, (m <= j < observed k)%nat -> shifted (S j) < before j)) /\
    (forall i', (i' < length (rt_times r))%nat -> i' <> i ->
       nth i' (rt_times r') [] = nth i' (rt_times r) [] /\ nth i' (rt_stops r') [] = nth i' (rt_stops r) []).
Proof.
  intros tt base es src t day near time k HE HF n Hk Hn Hn' r r' shifted before. pose proof (entities_mi tt base es HE _ (create_mi tt base)) as MI. fold r in MI.
  unfold r'. cbn [apply_entity]. rewrite handle_twin. destruct (with_twin tt r src t day) as [r1 i] eqn:EW. destruct (twin_spec _ _ _ _ _ _ _ _ MI HF EW) as (MI1 & HR & O & HB & HO & _).
  pose proof (find_near_spec near (s_seq tt t)) as FN. destruct (find_near near (s_seq tt t)) as [k0|].
  2:{ specialize (FN k Hk). unfold loc_at in Hn. congruence. }
  destruct FN as (F1 & F2 & F3). assert (k0 = k) as ->.
  { destruct (Nat.lt_trichotomy k0 k) as [L|[L|L]]; [|exact L|].
    - specialize (Hn' k0 L). unfold loc_at in Hn'. congruence.
    - specialize (F3 k L). unfold loc_at in Hn. congruence. }
  destruct HF as (HN & HF).
  destruct (position_spec tt r1 i t day base k time _ _ eq_refl eq_refl O HN Hk) as (T & ES & m & M1 & M2 & M3 & M4). destruct T.
  assert (HOb : (observed k < 2 * n - 2)%nat) by (unfold observed; lia).
  exists i. split; [unfold resolve_rt; rewrite tc_lookup; exact HR|]. split.
  - exists m. split; [exact M1|]. split; [|split].
    + intros j Hj. rewrite M2 by exact Hj. destruct (m <=? j)%nat; [reflexivity|]. apply HB. exact Hj.
    + destruct (Nat.eq_dec m 0) as [->|Hm]; [now left|right]. destruct M3 as [M3|M3]; [lia|]. rewrite HB in M3 by lia. exact M3.
    + intros j Hj. specialize (M4 j Hj). rewrite HB in M4 by lia. exact M4.
  - intros i' Hi' Hne. rewrite tc_times, ES by auto. apply HO. exact Hi'.
Qed.
(** In particular the vehicle is at stop [k] at the time of the position. *)
Corollary C66_observed_time : forall tt base es src t day near time k, Forall (entity_ok tt) es -> forward_schedule tt t day ->
  (k < length (s_seq tt t))%nat -> near (loc_at (s_seq tt t) k) = true -> (forall k', (k' < k)%nat -> near (loc_at (s_seq tt t) k') = false) ->
  let r' := apply_entity tt (apply_entities tt es (create_rt_timetable tt base)) (E_position src t day near time) in
  -32768 <= time - s_event tt t day k (negb (Nat.eqb k 0)) <= 32767 -> -32768 <= time - base <= 32767 ->
  exists i, resolve_rt r' (t, day) = Some i /\ nth (observed k) (nth i (rt_times r') []) 0 = time - base.
Proof.
  intros tt base es src t day near time k HE HF Hk Hn Hn' r' HD HT. destruct (C66_position tt base es src t day near time k HE HF Hk Hn Hn') as (i & H1 & (m & M1 & M2 & _) & _).
  exists i. split; [exact H1|]. destruct HF as (HN & _). unfold r'. rewrite M2 by (unfold observed; lia). rewrite (proj2 (Nat.leb_le _ _) M1).
  destruct (ev_stop_observed k) as [E1 E2]. unfold delay_at. rewrite E1, E2. unfold to_i16. rewrite Z.mod_small by lia. unfold clamp16, i16_min, i16_max. lia.
Qed.
(** C66: a position that is not near a stop of the trip changes no time. *)
Theorem C66_not_at_a_stop : forall tt base es src t day near time, Forall (entity_ok tt) es -> forward_schedule tt t day ->
  (forall k, (k < length (s_seq tt t))%nat -> near (loc_at (s_seq tt t) k) = false) ->
  let r := apply_entities tt es (create_rt_timetable tt base) in
  let r' := apply_entity tt r (E_position src t day near time) in
  (exists i, resolve_rt r' (t, day) = Some i /\ forall j, (j < 2 * length (s_seq tt t) - 2)%nat -> nth j (nth i (rt_times r') []) 0 = time_before tt r t day base j) /\
  (forall i', (i' < length (rt_times r))%nat -> nth i' (rt_times r') [] = nth i' (rt_times r) [] /\ nth i' (rt_stops r') [] = nth i' (rt_stops r) []).
Proof.
  intros tt base es src t day near time HE HF Hn r r'. pose proof (entities_mi tt base es HE _ (create_mi tt base)) as MI. fold r in MI.
  unfold r'. cbn [apply_entity]. rewrite handle_twin. destruct (with_twin tt r src t day) as [r1 i] eqn:EW. destruct (twin_spec _ _ _ _ _ _ _ _ MI HF EW) as (MI1 & HR & O & HB & HO & _).
  pose proof (find_near_spec near (s_seq tt t)) as FN. destruct (find_near near (s_seq tt t)) as [k0|]; [destruct FN as (F1 & F2 & _); specialize (Hn k0 F1); unfold loc_at in Hn; congruence|].
  split; [|exact HO]. exists i. split; [exact HR|exact HB].
Qed.
(** C66: the same position again changes nothing. *)
Theorem C66_idempotent : forall tt base es src t day near time, Forall (entity_ok tt) es -> forward_schedule tt t day ->
  let r' := apply_entity tt (apply_entities tt es (create_rt_timetable tt base)) (E_position src t day near time) in
  let r2 := apply_entity tt r' (E_position src t day near time) in
  forall i j, nth j (nth i (rt_times r2) []) 0 = nth j (nth i (rt_times r') []) 0.
Proof.
  intros tt base es src t day near time HE HF r' r2 i j.
  assert (HE' : Forall (entity_ok tt) (es ++ [E_position src t day near time])) by (apply Forall_app; split; [exact HE|constructor; [exact HF|constructor]]).
  assert (R : r' = apply_entities tt (es ++ [E_position src t day near time]) (create_rt_timetable tt base)) by (unfold apply_entities; rewrite fold_left_app; reflexivity).
  destruct (find_near near (s_seq tt t)) as [k|] eqn:FN; pose proof (find_near_spec near (s_seq tt t)) as F; rewrite FN in F.
  - destruct F as (F1 & F2 & F3). destruct (C66_position tt base es src t day near time k HE HF F1 F2 F3) as (i1 & H1 & (m & M1 & M2 & M3 & M4) & _).
    destruct (C66_position tt base _ src t day near time k HE' HF F1 F2 F3) as (i2 & K1 & (m' & N1 & N2 & N3 & N4) & KO). rewrite <- R in K1, N2, N3, N4, KO. fold r2 in K1, N2, KO. fold r' in H1, M2.
    assert (MI' : msg_inv tt base r') by (rewrite R; apply entities_mi; [exact HE'|apply create_mi]).
    assert (MI2 : msg_inv tt base r2) by (unfold r2; cbn [apply_entity]; apply position_mi; assumption).
    unfold time_before in N2, N3, N4. rewrite H1 in N2, N3, N4.
    assert (EI : i2 = i1).
    { unfold r2 in K1. cbn [apply_entity] in K1. rewrite handle_twin in K1. unfold with_twin, resolve_rt_run in K1. cbn [r_t] in K1. rewrite H1 in K1. cbn [r_rt] in K1. rewrite FN in K1.
      assert (O : okr i1 base (length (s_seq tt t)) r').
      { destruct MI' as [[A B C D E] RG TL RB]. destruct (TL t day i1 H1) as [T1 T2]. split; [lia|split; [unfold ts; rewrite C, T2; reflexivity|exact RB]]. }
      destruct HF as (HN & _). destruct (position_spec tt r' i1 t day base k time _ _ eq_refl eq_refl O HN F1) as (T & _). destruct T. unfold resolve_rt in K1, H1. rewrite tc_lookup in K1. congruence. }
    subst i2. destruct (Nat.eq_dec i i1) as [->|Hi].
    + destruct HF as (HN & _). assert (HOb : (observed k < 2 * length (s_seq tt t) - 2)%nat) by (unfold observed; lia).
      destruct (Nat.lt_ge_cases j (2 * length (s_seq tt t) - 2)) as [Hj|Hj].
      * rewrite N2 by exact Hj. rewrite !M2 by exact Hj. destruct (Nat.leb_spec m' j) as [L|L]; [|reflexivity]. destruct (Nat.leb_spec m j) as [L2|L2]; [reflexivity|]. exfalso.
        specialize (N4 (m - 1)%nat ltac:(lia)). rewrite M2 in N4 by lia. destruct (Nat.leb_spec m (m - 1)); [lia|]. replace (S (m - 1)) with m in N4 by lia. destruct M3 as [M3|M3]; lia.
      * destruct MI' as [[A B C D E] RG TL RB]. destruct MI2 as [[A2 B2 C2 D2 E2] RG2 TL2 RB2]. destruct (TL _ _ _ H1) as [_ X1]. destruct (TL2 _ _ _ K1) as [_ X2].
        rewrite !nth_overflow by (rewrite ?C, ?C2, ?X1, ?X2; lia). reflexivity.
    + destruct (Nat.lt_ge_cases i (length (rt_times r'))) as [L|L]; [destruct (KO i L Hi) as [-> _]; reflexivity|].
      assert (HT : length (rt_times r2) = length (rt_times r')).
      { unfold r2. cbn [apply_entity]. rewrite handle_twin. unfold with_twin, resolve_rt_run. cbn [r_t]. rewrite H1. cbn [r_rt]. rewrite FN.
        assert (O : okr i1 base (length (s_seq tt t)) r').
        { destruct MI' as [[A B C D E] RG TL RB]. destruct (TL t day i1 H1) as [T1 T2]. split; [lia|split; [unfold ts; rewrite C, T2; reflexivity|exact RB]]. }
        destruct HF as (HN & _). destruct (position_spec tt r' i1 t day base k time _ _ eq_refl eq_refl O HN F1) as (T & _). destruct T. exact tc_tlen. }
      rewrite !(nth_overflow _ []) by lia. reflexivity.
  - destruct (C66_not_at_a_stop tt base es src t day near time HE HF F) as ((i1 & H1 & _) & _). fold r' in H1.
    unfold r2. cbn [apply_entity]. rewrite handle_twin. unfold with_twin, resolve_rt_run. cbn [r_t]. rewrite H1. cbn [r_rt]. rewrite FN. reflexivity.
Qed.

(** Refuted: the delay belongs to the visit of the stop that the vehicle is making.  The vehicle goes A, B, A; it reaches A the second time,
    exactly on schedule; the position is taken for its departure from A, and the whole journey is moved behind its end. *)
Definition exv_stt : stt :=
  mk_stt [] [] (fun _ => [exd_word 0; exd_word 1; exd_word 0]) (fun t d s arr => 100000 + 20 * Z.of_nat s - (if arr then 5 else 0)) (fun l => Z.of_nat l) (fun s => Some (Z.to_nat s)) (fun l => [l]).
Theorem C66_second_visit_refuted :
  let e := E_position 0 0 0 (fun l => Nat.eqb l 0) (s_event exv_stt 0 0 2 true) in
  forward_schedule exv_stt 0 0 /\
  let r := apply_entities exv_stt [e] (create_rt_timetable exv_stt 100000) in
  nth 0 (rt_times r) [] = map (fun j => s_event exv_stt 0 0 (ev_stop j) (ev_arr j) + 35 - 100000) [0; 1; 2; 3]%nat.
Proof.
  intros e. split; [|vm_compute; reflexivity]. split; [vm_compute; lia|]. intros j Hj. cbn in Hj. destruct j as [|[|[|j]]]; [vm_compute; discriminate..|lia].
Qed.
(** Non-vacuity: a delay of 12 minutes is observed at the second stop, then the vehicle is seen at the third one two minutes early: the
    events at and after the third stop are early, departure and arrival at the second stop are moved (they would be later), the
    first departure stays. *)
Example C66_nonvacuous :
  let e1 := E_position 0 0 0 (fun l => Nat.eqb l 1) 100022 in let e2 := E_position 0 0 0 (fun l => Nat.eqb l 2) 100018 in
  let m := E_trip (M_update 0 (0%nat, 0) 0 4 [1; 2; 3; 4] exd_us) in
  Forall (entity_ok exd_stt) [m; e1; e2] /\
  let r k := nth 0 (rt_times (apply_entities exd_stt (firstn k [m; e1; e2]) (create_rt_timetable exd_stt 100000))) [] in
  r 1%nat = [0; 10; 15; 25; 25; 35] /\ r 2%nat = [0; 22; 22; 32; 32; 42] /\ r 3%nat = [0; 8; 8; 18; 18; 28].
Proof.
  assert (F : forall t day, forward_schedule exd_stt t day).
  { intros t day. split; [cbn; lia|]. intros j Hj. cbn in Hj. cbn [exd_stt s_event]. unfold ev_stop. assert (Nat.div2 (S j) <= Nat.div2 (S (S j)))%nat by (rewrite !Nat.div2_div; apply Nat.div_le_mono; lia). lia. }
  split; [repeat (constructor; [cbn [entity_ok]; auto|]); constructor|]. repeat split; vm_compute; reflexivity.
Qed.
