(** C64: stay-seated transfers. *)
From Coq Require Import List ZArith Bool Arith Sorted Permutation Lia.
From Verif Require Import Base Calendar_Model Block_Model Seated_Model Seated_Spec Seated_Proofs Seated_Dfs Seated_Loop.
Import ListNotations.
Local Open Scope Z_scope.

Section Totals.
  Variable E : expanded_seated.
  Variable order : nat -> nat -> list (nat * Z) -> list (nat * Z).
  Hypothesis Horder : forall it k l, Permutation (order it k l) l.
  Hypothesis Hok : input_ok E.
  Notation n := (length (es_trips E)).

  Definition range : list Z := map Z.of_nat (seq 0 512).
  Definition count (b : bitfield) : nat := length (filter b range).
  Definition total (rem : nat -> bitfield) : nat := list_sum (map (fun i => count (rem i)) (seq 0 n)).
  Lemma count_le (a b : bitfield) : (forall d, a d = true -> b d = true) -> (count a <= count b)%nat.
  Proof.
    intros H. unfold count. induction range as [|x l IH]; cbn; [lia|]. destruct (a x) eqn:A; [rewrite (H x A); cbn; lia|]. destruct (b x); cbn; lia.
  Qed.
  Lemma count_lt (a b : bitfield) d : (forall d, a d = true -> b d = true) -> 0 <= d < 512 -> b d = true -> a d = false -> (count a < count b)%nat.
  Proof.
    intros H Hd Hb Ha. unfold count. assert (I : In d range) by (apply in_map_iff; exists (Z.to_nat d); split; [lia|apply in_seq; lia]).
    revert I. generalize range. induction l as [|x l IH]; intros I; [destruct I|]. cbn [filter]. destruct I as [->|I].
    - rewrite Ha, Hb. cbn [length]. assert (K : (length (filter a l) <= length (filter b l))%nat); [|lia].
      clear IH. induction l as [|x l IH]; cbn; [lia|]. destruct (a x) eqn:A; [rewrite (H x A); cbn; lia|]. destruct (b x); cbn; lia.
    - specialize (IH I). destruct (a x) eqn:A; [rewrite (H x A); cbn; lia|]. destruct (b x); cbn; lia.
  Qed.
  Lemma total_lt (r r' : nat -> bitfield) i d : (forall j d, r' j d = true -> r j d = true) -> (i < n)%nat -> 0 <= d < 512 -> r i d = true -> r' i d = false -> (total r' < total r)%nat.
  Proof.
    intros H L Hd H1 H2. unfold total. assert (I : In i (seq 0 n)) by (apply in_seq; lia). revert I. generalize (seq 0 n).
    assert (K : forall l, (list_sum (map (fun i => count (r' i)) l) <= list_sum (map (fun i => count (r i)) l))%nat).
    { induction l as [|x l IH]; [cbn; lia|]. change ((count (r' x) + list_sum (map (fun i => count (r' i)) l) <= count (r x) + list_sum (map (fun i => count (r i)) l))%nat).
      pose proof (count_le (r' x) (r x) (H x)). lia. }
    induction l as [|x l IH]; intros I; [destruct I|].
    change ((count (r' x) + list_sum (map (fun i => count (r' i)) l) < count (r x) + list_sum (map (fun i => count (r i)) l))%nat).
    destruct I as [->|I].
    - pose proof (count_lt (r' i) (r i) d (H i) Hd H1 H2). specialize (K l). lia.
    - specialize (IH I). pose proof (count_le (r' x) (r x) (H x)). lia.
  Qed.

  Lemma loop_total rank : (forall a b, In b (es_out E a) -> (rank a < rank b)%nat) ->
    forall k it next rem bits, (total rem < k)%nat -> inv E next rem bits -> exists out, loop E order it next rem bits out.
  Proof.
    intros Hrank. induction k as [|k IH]; intros it next rem bits Hk HI; [lia|]. destruct next as [i|]; [|exists []; constructor].
    destruct (it_i E i rem bits HI) as (L & A).
    destruct (grow_total E order Horder Hok it rem _ 0 [(i, 0)] [] (rem i) (start_inv E rem i L A) (le_n _)) as ((comp0, days) & G).
    pose proof (it_inv E order it i rem bits HI comp0 days) as HI'. destruct (it_progress E order Horder Hok it i rem bits HI _ _ _ G) as (d & Hd & H1 & H2).
    destruct (it_comp E order Horder Hok it i rem bits HI _ _ _ G) as (_ & Nd & _).
    destruct (explore_all E Hok (order it 0 comp0) rank Hrank Nd) as (f & chains & GD & _).
    destruct (IH (S it) (next_set_bit E (clear_bits (order it 0 comp0) (remove_days (order it 0 comp0) days rem) bits) i) (remove_days (order it 0 comp0) days rem)
      (clear_bits (order it 0 comp0) (remove_days (order it 0 comp0) days rem) bits)) as (out & HL); [|exact HI'|].
    - pose proof (total_lt rem (remove_days (order it 0 comp0) days rem) i d) as T. specialize (T (fun j x H => proj1 (proj1 (remove_spec _ _ _ _ _) H)) L Hd H1 H2). lia.
    - eexists. eapply (loop_step E order it i rem bits _ comp0 days (f + 1)); [exact G| |exact HL].
      assert (S : rev (starts E (order it 0 comp0) days) = map (conc E days) (rev (map (fun e => [e]) (entries E (order it 0 comp0))))) by (unfold starts, entries; rewrite map_rev, map_map; reflexivity).
      cbv zeta. rewrite S, dfs_gd; [rewrite GD; reflexivity|]. intros c Hc. apply in_rev in Hc. apply in_map_iff in Hc. destruct Hc as (e & <- & _). discriminate.
  Qed.
  Lemma init_inv : all_run E -> let bits := fun i => Nat.ltb i n in inv E (next_set_bit E bits 0) (fun i => ut_days (trip_of E i)) bits.
  Proof.
    intros HR bits. split.
    - auto.
    - intros i L. unfold bits. rewrite Nat.ltb_lt. split; [|auto]. intros _. destruct (HR i L) as (d & Hd). apply (runs_iff E) in Hd. apply bf_any_spec. exists d. split; [|apply Hd].
      apply (orig_range E Hok i); [exact L|apply Hd].
    - apply next_spec; [intros j Hj; lia|auto].
  Qed.

  (** What the outer loop hands out. *)
  Record result (rem : nat -> bitfield) (pp : list (list (nat * Z))) (out : list utc_trip) : Prop := {
    rs_len : length pp = length out;
    rs_joined : forall p j, carried pp out p j -> joined E p j;
    rs_days : forall p j q d, carried pp out p j -> In q p -> ut_days j d = true -> (fst q < n)%nat /\ rem (fst q) (d + snd q) = true }.
  Record complete_result (rem : nat -> bitfield) (pp : list (list (nat * Z))) (out : list utc_trip) : Prop := {
    cr_result : result rem pp out;
    cr_cover : forall i d, (i < n)%nat -> rem i d = true -> exists p j o, carried pp out p j /\ In (i, o) p /\ ut_days j (d - o) = true;
    cr_link : forall u v o d, follows E u v -> meets E u v o -> rem u d = true -> rem v (d + o) = true ->
      exists p j l1 l2 o1, carried pp out p j /\ p = l1 ++ (u, o1) :: (v, o1 + o) :: l2 /\ ut_days j (d - o1) = true;
    cr_meets : forall p j l1 u o v o' l2, carried pp out p j -> p = l1 ++ (u, o) :: (v, o') :: l2 -> meets E u v (o' - o);
    cr_once : forall k l p j j' d, k <> l -> nth_error pp k = Some p -> nth_error pp l = Some p -> nth_error out k = Some j -> nth_error out l = Some j' ->
      ut_days j d = true -> ut_days j' d = true -> False }.
  Lemma carried_app pp out pp' out' p j : length pp = length out -> carried (pp ++ pp') (out ++ out') p j <-> carried pp out p j \/ carried pp' out' p j.
  Proof.
    intros L. unfold carried. split.
    - intros (k & H1 & H2). destruct (le_lt_dec (length pp) k) as [G|G].
      + right. rewrite nth_error_app2 in H1, H2 by lia. rewrite <- L in H2. eauto.
      + left. rewrite nth_error_app1 in H1, H2 by lia. eauto.
    - intros [(k & H1 & H2)|(k & H1 & H2)].
      + exists k. assert ((k < length pp)%nat) by (apply nth_error_Some; congruence). rewrite !nth_error_app1 by lia. auto.
      + exists (length pp + k)%nat. rewrite !nth_error_app2 by lia. rewrite <- L. replace (length pp + k - length pp)%nat with k by lia. auto.
  Qed.
  Lemma carried_map {A} (f : A -> list (nat * Z)) (g : A -> utc_trip) l p j : carried (map f l) (map g l) p j <-> exists c, In c l /\ p = f c /\ j = g c.
  Proof.
    unfold carried. split.
    - intros (k & H1 & H2). rewrite nth_error_map in H1, H2. destruct (nth_error l k) as [c|] eqn:N; [|discriminate]. injection H1 as <-. injection H2 as <-.
      exists c. split; [exact (nth_error_In _ _ N)|auto].
    - intros (c & Hc & -> & ->). apply In_nth_error in Hc. destruct Hc as (k & Hk). exists k. rewrite !nth_error_map, Hk. auto.
  Qed.

  Lemma loop_result it next rem bits out : loop E order it next rem bits out -> inv E next rem bits -> exists pp, result rem pp out.
  Proof.
    intros H. induction H as [it rem bits|it i rem bits fuel comp0 days fuel' part out G comp HD rem' bits' HL IH]; intros HI.
    - exists []. split; [reflexivity| |]; intros p j; unfold carried; [|intros q d]; intros (k & H & _); destruct k; discriminate.
    - pose proof (it_inv E order it i rem bits HI comp0 days) as HI'. destruct (IH HI') as (pp & [R1 R2 R3]).
      destruct (it_chains E order it comp0 days fuel' part HD) as (chains & _ & -> & W). fold comp in W.
      exists (map parts_of chains ++ pp). assert (L : length (map parts_of chains) = length (map (transport_of E days) chains)) by now rewrite !map_length.
      split; [rewrite !app_length; congruence| |].
      + intros p j HC. apply carried_app in HC; [|exact L]. destruct HC as [HC|HC]; [|auto]. apply carried_map in HC. destruct HC as (c & Hc & -> & ->).
        exact (it_joined E order Horder Hok it i rem bits HI _ _ _ G c (W c Hc)).
      + intros p j q d HC Hq Hd. apply carried_app in HC; [|exact L]. destruct HC as [HC|HC].
        * apply carried_map in HC. destruct HC as (c & Hc & -> & ->). exact (it_days E order Horder Hok it i rem bits HI _ _ _ G c q d (W c Hc) Hd Hq).
        * destruct (R3 _ _ _ _ HC Hq Hd) as (A & B). split; [exact A|]. apply remove_spec in B. apply B.
  Qed.

  Lemma loop_complete rank pos it next rem bits out : (forall a b, In b (es_out E a) -> (rank a < rank b)%nat) -> on_calendar E pos ->
    loop E order it next rem bits out -> inv E next rem bits -> exists pp, complete_result rem pp out.
  Proof.
    intros Hrank Hcal H. induction H as [it rem bits|it i rem bits fuel comp0 days fuel' part out G comp HD rem' bits' HL IH]; intros HI.
    - exists []. assert (NC : forall p j, ~ carried [] [] p j) by (intros p j (k & H & _); destruct k; discriminate).
      assert (NR : forall i d, (i < n)%nat -> rem i d = true -> False).
      { intros i d L Hr. pose proof (iv_next _ _ _ _ HI i L) as B. assert (X : bf_any (rem i) = true).
        { apply bf_any_spec. exists d. split; [|exact Hr]. apply (orig_range E Hok i _ L). exact (iv_sub _ _ _ _ HI _ _ L Hr). }
        apply (iv_bits _ _ _ _ HI i L) in X. congruence. }
      split; [split; [reflexivity| |]| | | |].
      + intros p j HC. destruct (NC _ _ HC).
      + intros p j q d HC. destruct (NC _ _ HC).
      + intros i d L Hr. destruct (NR _ _ L Hr).
      + intros u v o d (L & _) _ Hr. destruct (NR _ _ L Hr).
      + intros p j l1 u o v o' l2 HC. destruct (NC _ _ HC).
      + intros k l p j j' d _ H. destruct k; discriminate.
    - pose proof (it_inv E order it i rem bits HI comp0 days) as HI'. destruct (IH HI') as (pp & [[R1 R2 R3] C1 C2 C3 C4]).
      destruct (it_complete E order Horder Hok it i rem bits HI _ _ _ G fuel' part HD rank Hrank) as (chains & -> & W & Nd & X). fold comp in W, X.
      assert (L : length (map parts_of chains) = length (map (transport_of E days) chains)) by now rewrite !map_length.
      exists (map parts_of chains ++ pp). split; [split|..].
      + rewrite !app_length. congruence.
      + intros p j HC. apply carried_app in HC; [|exact L]. destruct HC as [HC|HC]; [|auto]. apply carried_map in HC. destruct HC as (c & Hc & -> & ->).
        exact (it_joined E order Horder Hok it i rem bits HI _ _ _ G c (W c Hc)).
      + intros p j q d HC Hq Hd. apply carried_app in HC; [|exact L]. destruct HC as [HC|HC].
        * apply carried_map in HC. destruct HC as (c & Hc & -> & ->). exact (it_days E order Horder Hok it i rem bits HI _ _ _ G c q d (W c Hc) Hd Hq).
        * destruct (R3 _ _ _ _ HC Hq Hd) as (A & B). split; [exact A|]. apply remove_spec in B. apply B.
      + intros j d Lj Hr. destruct (rem' j d) eqn:Hr'.
        * destruct (C1 j d Lj Hr') as (p & t & o & HC & HH). exists p, t, o. split; [apply carried_app; auto|exact HH].
        * destruct (it_covers E order Horder Hok it i rem bits HI _ _ _ G _ rank Hrank pos Hcal j d chains eq_refl W X Hr Hr') as (c & o & Hc & H1 & H2).
          exists (parts_of c), (transport_of E days c), o. split; [apply carried_app; [exact L|]; left; apply carried_map; eauto|auto].
      + intros u v o d F M Ru Rv. destruct (rem' u d) eqn:Hu; [destruct (rem' v (d + o)) eqn:Hv|].
        * destruct (C2 u v o d F M Hu Hv) as (p & t & l1 & l2 & o1 & HC & HH). exists p, t, l1, l2, o1. split; [apply carried_app; auto|exact HH].
        * destruct (it_links E order Horder Hok it i rem bits HI _ _ _ G _ rank Hrank pos Hcal u v o d chains eq_refl W X F M Ru Rv (or_intror Hv)) as (c & l1 & l2 & o1 & Hc & H1 & H2).
          exists (parts_of c), (transport_of E days c), l1, l2, o1. split; [apply carried_app; [exact L|]; left; apply carried_map; eauto|auto].
        * destruct (it_links E order Horder Hok it i rem bits HI _ _ _ G _ rank Hrank pos Hcal u v o d chains eq_refl W X F M Ru Rv (or_introl Hu)) as (c & l1 & l2 & o1 & Hc & H1 & H2).
          exists (parts_of c), (transport_of E days c), l1, l2, o1. split; [apply carried_app; [exact L|]; left; apply carried_map; eauto|auto].
      + intros p j l1 u o v o' l2 HC Hp. apply carried_app in HC; [|exact L]. destruct HC as [HC|HC]; [|exact (C3 _ _ _ _ _ _ _ _ HC Hp)].
        apply carried_map in HC. destruct HC as (c & Hc & -> & ->). exact (it_meets E order Horder Hok it i rem bits HI _ _ _ G pos Hcal c l1 u o v o' l2 (W c Hc) Hp).
      + assert (Late : forall p j j' d, In p (map parts_of chains) -> carried (map parts_of chains) (map (transport_of E days) chains) p j -> carried pp out p j' ->
          ut_days j d = true -> ut_days j' d = true -> False).
        { intros p j j' d _ H1 H2 D1 D2. apply carried_map in H1. destruct H1 as (c & Hc & -> & ->).
          destruct (rs_joined _ _ _ (Build_result _ _ _ R1 R2 R3) _ _ H2) as (f & rest & Hp & _).
          pose proof (it_removed E order Horder Hok it i rem bits HI _ _ _ G c d _ _ (W c Hc) D1 Hp) as HR.
          assert (HQ : In (f, 0) (parts_of c)) by (rewrite Hp; left; reflexivity). destruct (R3 _ _ _ _ H2 HQ D2) as (_ & R). cbn [fst snd] in *. rewrite Z.add_0_r in R. change (rem' f d = false) in HR. rewrite HR in R. discriminate. }
        intros k l p j j' d Hkl P1 P2 Q1 Q2 D1 D2. set (m := length chains).
        assert (Lp : length (map parts_of chains) = m) by apply map_length. assert (Lt : length (map (transport_of E days) chains) = m) by apply map_length.
        destruct (le_lt_dec m k) as [Gk|Gk], (le_lt_dec m l) as [Gl|Gl].
        * rewrite nth_error_app2 in P1, P2, Q1, Q2 by lia. rewrite Lp in P1, P2. rewrite Lt in Q1, Q2.
          refine (C4 (k - m)%nat (l - m)%nat p j j' d _ P1 P2 Q1 Q2 D1 D2). lia.
        * rewrite nth_error_app2 in P1, Q1 by lia. rewrite nth_error_app1 in P2, Q2 by lia. rewrite Lp in P1. rewrite Lt in Q1.
          refine (Late p j' j d (nth_error_In _ _ P2) _ _ D2 D1); eexists; eauto.
        * rewrite nth_error_app1 in P1, Q1 by lia. rewrite nth_error_app2 in P2, Q2 by lia. rewrite Lp in P2. rewrite Lt in Q2.
          refine (Late p j j' d (nth_error_In _ _ P1) _ _ D1 D2); eexists; eauto.
        * rewrite nth_error_app1 in P1, P2, Q1, Q2 by lia. rewrite nth_error_map in P1, P2, Q1, Q2.
          destruct (nth_error chains k) as [c|] eqn:N1; [|discriminate]. destruct (nth_error chains l) as [c'|] eqn:N2; [|discriminate].
          injection P1 as P1. injection P2 as P2. apply Hkl. apply (proj1 (NoDup_nth_error chains) Nd); [exact Gk|]. rewrite N1, N2. f_equal.
          pose proof (W c (nth_error_In _ _ N1)) as W1. pose proof (W c' (nth_error_In _ _ N2)) as W2.
          destruct (walk_snoc E order it comp0 c W1) as (l1 & e1 & E1 & _). destruct (walk_snoc E order it comp0 c' W2) as (l2 & e2 & E2 & _).
          assert (PE : forall a b, In a comp -> In b comp -> fst a = fst b -> a = b).
          { intros a b Ha Hb Hf. pose proof (it_pos E order Horder Hok it i rem bits HI _ _ _ G pos Hcal a Ha). pose proof (it_pos E order Horder Hok it i rem bits HI _ _ _ G pos Hcal b Hb).
            apply injective_projections; [exact Hf|]. rewrite Hf in *. lia. }
          assert (Z : map fst c = map fst c').
          { assert (Y : forall c, map fst (parts_of c) = rev (map fst c)) by (intros z; unfold parts_of; rewrite map_map, <- map_rev; apply map_ext; reflexivity).
            rewrite <- (rev_involutive (map fst c)), <- (rev_involutive (map fst c')), <- !Y, P1, P2. reflexivity. }
          assert (I1 : forall a, In a c -> In a comp) by (intros a; apply (walk_In E comp _ _ W1)). assert (I2 : forall a, In a c' -> In a comp) by (intros a; apply (walk_In E comp _ _ W2)).
          revert Z I1 I2. generalize c, c'. induction c0 as [|a l0 IHl]; intros [|b l0'] Z I1 I2; cbn in Z; try discriminate; [reflexivity|]. injection Z as Z1 Z2.
          rewrite (PE a b (I1 a (or_introl eq_refl)) (I2 b (or_introl eq_refl)) Z1). f_equal. apply IHl; [exact Z2| |]; intros z Hz; [apply I1|apply I2]; now right.
  Qed.
End Totals.

(** C64: every transport handed to the timetable is a chain of trips joined by rules, on days on which all of them run. *)
Theorem C64_sound E order out : (forall it k l, Permutation (order it k l) l) -> input_ok E -> all_run E ->
  build_seated_trips E order out -> forall j, In j out -> exists parts, joined E parts j.
Proof.
  intros Ho Hok HR HB j Hj. destruct (loop_result E order Ho Hok _ _ _ _ _ HB (init_inv E Hok HR)) as (pp & [R1 R2 _]).
  apply In_nth_error in Hj. destruct Hj as (k & Hk). assert (K : (k < length pp)%nat) by (rewrite R1; apply nth_error_Some; congruence).
  apply nth_error_Some in K. destruct (nth_error pp k) as [p|] eqn:N; [|congruence]. exists p. apply R2. exists k. auto.
Qed.

(** The resolution ends, if no trip follows itself. *)
Theorem C64_terminates E order : (forall it k l, Permutation (order it k l) l) -> input_ok E -> all_run E -> acyclic E ->
  exists out, build_seated_trips E order out.
Proof.
  intros Ho Hok HR (rank & Hrank). exact (loop_total E order Ho Hok rank Hrank _ _ _ _ _ (le_n _) (init_inv E Hok HR)).
Qed.

(** Under a consistent calendar nothing is lost, nothing is doubled and every stay-seated transfer is available. *)
Theorem C64_exact E order out : (forall it k l, Permutation (order it k l) l) -> input_ok E -> all_run E -> acyclic E -> consistent E ->
  build_seated_trips E order out ->
  exists pp, length pp = length out /\
    (forall p j, carried pp out p j -> joined E p j) /\
    (* every trip is on a transport on each day it runs *)
    (forall i d, runs E i d -> exists p j o, carried pp out p j /\ In (i, o) p /\ ut_days j (d - o) = true) /\
    (* whoever may stay seated can *)
    (forall u v o d, follows E u v -> meets E u v o -> runs E u d -> runs E v (d + o) ->
       exists p j l1 l2 o1, carried pp out p j /\ p = l1 ++ (u, o1) :: (v, o1 + o) :: l2 /\ ut_days j (d - o1) = true) /\
    (* trips behind each other in a transport do meet *)
    (forall p j l1 u o v o' l2, carried pp out p j -> p = l1 ++ (u, o) :: (v, o') :: l2 -> meets E u v (o' - o)) /\
    (* no transport twice on a day *)
    (forall k l p j j' d, k <> l -> nth_error pp k = Some p -> nth_error pp l = Some p -> nth_error out k = Some j -> nth_error out l = Some j' ->
       ~ (ut_days j d = true /\ ut_days j' d = true)).
Proof.
  intros Ho Hok HR (rank & Hrank) (pos & Hpos) HB. destruct (loop_complete E order Ho Hok rank pos _ _ _ _ _ Hrank Hpos HB (init_inv E Hok HR)) as (pp & [[R1 R2 _] C1 C2 C3 C4]).
  exists pp. split; [exact R1|]. split; [exact R2|]. split; [|split; [|split; [exact C3|]]].
  - intros i d H. apply (runs_iff E) in H. destruct H as (L & H). exact (C1 i d L H).
  - intros u v o d F M Hu Hv. apply (runs_iff E) in Hu. apply (runs_iff E) in Hv. destruct Hu as (_ & Hu). destruct Hv as (_ & Hv). exact (C2 u v o d F M Hu Hv).
  - intros k l p j j' d N P1 P2 Q1 Q2 (D1 & D2). exact (C4 k l p j j' d N P1 P2 Q1 Q2 D1 D2).
Qed.

(** A transport whose parts meet never goes back in time. *)
Lemma arrives_max E u a t x : input_ok E -> arrives E u a -> nth_error (es_trips E) u = Some t -> In x (ut_times t) -> x <= a.
Proof.
  intros Hok (t' & l & y & N & Ht & ->) N' Hx. rewrite N in N'. injection N' as <-. destruct (ok_times E Hok t' (nth_error_In _ _ N)) as (Hs & _).
  rewrite Ht in *. apply in_app_or in Hx. destruct Hx as [Hx|[->|[]]]; [|lia]. clear -Hs Hx. induction l as [|z l IH]; [destruct Hx|].
  inversion Hs as [|? ? Hs' Hf]; subst. destruct Hx as [->|Hx]; [|auto]. rewrite Forall_forall in Hf. apply Hf, in_or_app. right. left. reflexivity.
Qed.
Lemma departs_min E u d t x : input_ok E -> departs E u d -> nth_error (es_trips E) u = Some t -> In x (ut_times t) -> d <= x.
Proof.
  intros Hok (t' & y & l & N & Ht & ->) N' Hx. rewrite N in N'. injection N' as <-. destruct (ok_times E Hok t' (nth_error_In _ _ N)) as (Hs & _).
  rewrite Ht in *. inversion Hs as [|? ? _ Hf]; subst. rewrite Forall_forall in Hf. destruct Hx as [->|Hx]; [lia|auto].
Qed.
Definition shifted (E : expanded_seated) (p : nat * Z) : list Z := map (fun x => x + snd p * 1440) (ut_times (nth (fst p) (es_trips E) no_trip)).
Definition chained (E : expanded_seated) (l : list (nat * Z)) : Prop := forall l1 u o v o' l2, l = l1 ++ (u, o) :: (v, o') :: l2 -> meets E u v (o' - o).
Lemma after E : input_ok E -> forall l u o a, chained E ((u, o) :: l) -> arrives E u a -> Forall (fun x => a + o * 1440 <= x) (flat_map (shifted E) l).
Proof.
  intros Hok. induction l as [|(v, o') l IH]; intros u o a Hc Ha; [constructor|]. cbn [flat_map]. apply Forall_app.
  destruct (Hc [] u o v o' l eq_refl) as (a' & d & Ha' & Hd & Hm). assert (a' = a) as ->.
  { destruct Ha as (t & l1 & x & N & T & ->), Ha' as (t' & l1' & x' & N' & T' & ->). rewrite N in N'. injection N' as <-. rewrite T in T'. apply app_inj_tail in T'. symmetry. apply T'. }
  destruct Hd as (t & y & ys & N & T & ->) eqn:EqD. split.
  - apply Forall_forall. intros x Hx. unfold shifted in Hx. cbn [fst snd] in Hx. rewrite (nth_error_nth _ _ _ N) in Hx. apply in_map_iff in Hx. destruct Hx as (z & <- & Hz).
    pose proof (departs_min E v y t z Hok (ex_intro _ t (ex_intro _ y (ex_intro _ ys (conj N (conj T eq_refl))))) N Hz). lia.
  - assert (exists w, arrives E v w) as (w & Hw).
    { destruct (exists_last (l := ut_times t)) as (l0 & w & Hl); [rewrite T; discriminate|]. exists w. exists t, l0, w. auto. }
    assert (y <= w) by (apply (arrives_max E v w t y Hok Hw N); rewrite T; left; reflexivity).
    eapply Forall_impl; [|apply (IH v o' w); [|exact Hw]].
    + intros z Hz. cbv beta in Hz. lia.
    + intros l1 u1 o1 v1 o1' l2 El. apply (Hc ((u, o) :: l1) u1 o1 v1 o1' l2). rewrite El. reflexivity.
Qed.
Lemma sorted_app (l1 l2 : list Z) : StronglySorted Z.le l1 -> StronglySorted Z.le l2 -> (forall x, In x l1 -> Forall (Z.le x) l2) -> StronglySorted Z.le (l1 ++ l2).
Proof.
  intros H1 H2 H. induction l1 as [|x l1 IH]; [exact H2|]. inversion H1 as [|? ? H1' Hf]; subst. cbn. constructor.
  - apply IH; [exact H1'|intros y Hy; apply H; now right].
  - apply Forall_app. split; [exact Hf|apply H; now left].
Qed.
Lemma chained_sorted E : input_ok E -> forall l, (forall p, In p l -> (fst p < length (es_trips E))%nat) -> chained E l -> StronglySorted Z.le (flat_map (shifted E) l).
Proof.
  intros Hok. induction l as [|(u, o) l IH]; intros Hl Hc; [constructor|]. cbn [flat_map]. pose proof (Hl (u, o) (or_introl eq_refl)) as L. cbn in L.
  apply nth_error_Some in L. destruct (nth_error (es_trips E) u) as [t|] eqn:N; [|congruence]. clear L.
  destruct (ok_times E Hok t (nth_error_In _ _ N)) as (Hs & y & ys & T & _). destruct (exists_last (l := ut_times t)) as (l0 & w & Hw); [rewrite T; discriminate|].
  assert (Ha : arrives E u w) by (exists t, l0, w; auto). apply sorted_app.
  - unfold shifted. cbn [fst snd]. rewrite (nth_error_nth _ _ _ N). clear -Hs. induction Hs as [|x l Hs IH Hf]; cbn; constructor; [exact IH|].
    apply Forall_map. eapply Forall_impl; [|exact Hf]. cbv beta. intros; lia.
  - apply IH; [intros p Hp; apply Hl; now right|]. intros l1 u1 o1 v1 o1' l2 El. apply (Hc ((u, o) :: l1) u1 o1 v1 o1' l2). rewrite El. reflexivity.
  - intros x Hx. unfold shifted in Hx. cbn [fst snd] in Hx. rewrite (nth_error_nth _ _ _ N) in Hx. apply in_map_iff in Hx. destruct Hx as (z & <- & Hz).
    pose proof (arrives_max E u w t z Hok Ha N Hz). eapply Forall_impl; [|exact (after E Hok l u o w Hc Ha)]. cbv beta. intros; lia.
Qed.
Theorem C64_sorted E order out : (forall it k l, Permutation (order it k l) l) -> input_ok E -> all_run E -> acyclic E -> consistent E ->
  build_seated_trips E order out -> forall j d, In j out -> ut_days j d = true -> StronglySorted Z.le (ut_times j).
Proof.
  intros Ho Hok HR HA HC HB j d Hj Hd. destruct (C64_exact E order out Ho Hok HR HA HC HB) as (pp & R1 & R2 & _ & _ & R3 & _).
  apply In_nth_error in Hj. destruct Hj as (k & Hk). assert (K : (k < length pp)%nat) by (rewrite R1; apply nth_error_Some; congruence).
  apply nth_error_Some in K. destruct (nth_error pp k) as [p|] eqn:N; [|congruence]. assert (HCa : carried pp out p j) by (exists k; auto).
  destruct (R2 p j HCa) as (f & rest & Hp & _ & Ht & _ & _ & Hday). rewrite Ht. apply chained_sorted; [exact Hok| |].
  - intros q Hq. destruct (Hday d q Hd Hq) as (t & Nt & _). apply nth_error_Some. congruence.
  - intros l1 u o v o' l2 El. exact (R3 p j l1 u o v o' l2 HCa El).
Qed.

(** An executable version of the outer loop, for the examples. *)
Section Run.
  Variable E : expanded_seated.
  Variable order : nat -> nat -> list (nat * Z) -> list (nat * Z).
  Fixpoint run (f it : nat) (next : option nat) (rem : nat -> bitfield) (bits : nat -> bool) : option (list utc_trip) :=
    match f with
    | O => None
    | S f' =>
        match next with
        | None => Some []
        | Some i =>
            match grow E order 100 it 0 rem [(i, 0)] [] (rem i) with
            | None => None
            | Some (comp, days) =>
                match dfs E 100 (order it 0 comp) (rev (starts E (order it 0 comp) days)) with
                | None => None
                | Some part =>
                    let rem' := remove_days (order it 0 comp) days rem in
                    let bits' := clear_bits (order it 0 comp) rem' bits in
                    option_map (app part) (run f' (S it) (next_set_bit E bits' i) rem' bits')
                end
            end
        end
    end.
  Lemma run_loop f : forall it next rem bits out, run f it next rem bits = Some out -> loop E order it next rem bits out.
  Proof.
    induction f as [|f IH]; intros it next rem bits out H; [discriminate|]. cbn [run] in H. destruct next as [i|]; [|injection H as <-; constructor].
    destruct (grow E order 100 it 0 rem [(i, 0)] [] (rem i)) as [(comp, days)|] eqn:G; [|discriminate].
    destruct (dfs E 100 (order it 0 comp) (rev (starts E (order it 0 comp) days))) as [part|] eqn:D; [|discriminate]. cbv zeta in H.
    destruct (run f (S it) (next_set_bit E (clear_bits (order it 0 comp) (remove_days (order it 0 comp) days rem) bits) i) (remove_days (order it 0 comp) days rem)
      (clear_bits (order it 0 comp) (remove_days (order it 0 comp) days rem) bits)) as [o|] eqn:R; [|discriminate]. injection H as <-.
    exact (loop_step E order it i rem bits 100 comp days 100 part o G D (IH _ _ _ _ _ R)).
  Qed.
  Definition run_all (f : nat) : option (list utc_trip) :=
    run f 0 (next_set_bit E (fun i => Nat.ltb i (length (es_trips E))) 0) (fun i => ut_days (trip_of E i)) (fun i => Nat.ltb i (length (es_trips E))).
  Lemma run_all_build f out : run_all f = Some out -> build_seated_trips E order out.
  Proof. apply run_loop. Qed.

  (** More fuel changes nothing, so the loop has at most one result. *)
  Lemma grow_more f m : forall it k rem q comp days r, grow E order f it k rem q comp days = Some r -> grow E order (f + m) it k rem q comp days = Some r.
  Proof.
    induction f as [|f IH]; intros it k rem q comp days r H; [discriminate|]. cbn [grow Nat.add] in *. destruct (order it k q) as [|(c, o) q']; [exact H|].
    destruct (negb (bf_any (bf_and (shift (rem c) (- o)) days))); apply IH; exact H.
  Qed.
  Lemma dfs_more f m : forall comp st r, dfs E f comp st = Some r -> dfs E (f + m) comp st = Some r.
  Proof.
    induction f as [|f IH]; intros comp st r H; [discriminate|]. cbn [dfs Nat.add] in *. destruct st as [|e st]; [exact H|].
    destruct (nexts E comp e) as [|x l]; [|exact (IH _ _ _ H)]. destruct (dfs E f comp st) as [o|] eqn:D; [|discriminate]. rewrite (IH _ _ _ D). exact H.
  Qed.
  Lemma grow_det f f' it k rem q comp days r r' : grow E order f it k rem q comp days = Some r -> grow E order f' it k rem q comp days = Some r' -> r = r'.
  Proof.
    intros H H'. pose proof (grow_more f f' _ _ _ _ _ _ _ H) as A. pose proof (grow_more f' f _ _ _ _ _ _ _ H') as B. rewrite Nat.add_comm in B. congruence.
  Qed.
  Lemma dfs_det f f' comp st r r' : dfs E f comp st = Some r -> dfs E f' comp st = Some r' -> r = r'.
  Proof.
    intros H H'. pose proof (dfs_more f f' _ _ _ H) as A. pose proof (dfs_more f' f _ _ _ H') as B. rewrite Nat.add_comm in B. congruence.
  Qed.
  Lemma loop_det it next rem bits out : loop E order it next rem bits out -> forall out', loop E order it next rem bits out' -> out = out'.
  Proof.
    intros H. induction H as [it rem bits|it i rem bits fuel comp days fuel' part out G comp' HD rem' bits' HL IH]; intros out' H'; [inversion H'; reflexivity|].
    inversion H' as [|? ? ? ? f2 c2 d2 f2' p2 o2 G2 c2' HD2 r2 b2 HL2]; subst. pose proof (grow_det _ _ _ _ _ _ _ _ _ _ G G2) as X. injection X as <- <-.
    unfold c2' in HD2. fold comp' in HD2. rewrite (dfs_det _ _ _ _ _ _ HD HD2). f_equal. apply IH. exact HL2.
  Qed.
End Run.
Theorem C64_deterministic E order out out' : build_seated_trips E order out -> build_seated_trips E order out' -> out = out'.
Proof. intros H H'. exact (loop_det E order _ _ _ _ _ H _ H'). Qed.

Definition on_days (l : list Z) : bitfield := fun d => existsb (Z.eqb d) l.
Definition view (j : utc_trip) := (ut_trips j, ut_times j, filter (ut_days j) (map Z.of_nat (seq 0 10)), ut_stops j).
Definition same_order (it k : nat) (l : list (nat * Z)) := l.
Lemma same_order_perm it k l : Permutation (same_order it k l) l.
Proof. apply Permutation_refl. Qed.

(** a 23:50 - 00:10 runs on days 1 and 2; passengers stay seated into b 00:20 - 01:00, which runs on days 2 and 3, and from b into c and
    into d, both 01:10; c runs on day 3 only. *)
Module SeatedEx.
  Definition st (l : Z) := mk_ss l true true.
  Definition trips : list utc_trip := [
    mk_ut [10%nat] [1430; 1450] (on_days [1; 2]) [st 1; st 2];
    mk_ut [11%nat] [20; 60] (on_days [2; 3]) [st 2; st 3];
    mk_ut [12%nat] [70; 120] (on_days [3]) [st 3; st 4];
    mk_ut [13%nat] [70; 180] (on_days [2; 3]) [st 3; st 5]].
  Definition E : expanded_seated := mk_es trips (fun i => i)
    (fun t => match t with 1 => [0] | 2 | 3 => [1] | _ => [] end%nat)
    (fun t => match t with 0 => [1] | 1 => [2; 3] | _ => [] end%nat).
  Definition pos (i : nat) : Z := match i with O => 0 | _ => 1 end.
  Lemma input : input_ok E.
  Proof.
    split.
    - intros t H. repeat (destruct H as [<-|H]; [eexists; reflexivity|]). destruct H.
    - intros t H. repeat (destruct H as [<-|H]; [split; [repeat (constructor; try lia)|do 2 eexists; split; [reflexivity|lia]]|]). destruct H.
    - intros t d H Hd. repeat (destruct H as [<-|H]; [cbn in Hd; repeat (apply orb_true_iff in Hd; destruct Hd as [Hd|Hd]; [apply Z.eqb_eq in Hd; lia|]); discriminate|]). destruct H.
    - intros [|[|[|a]]] [|[|[|[|b]]]]; cbn; intuition (try discriminate; try lia).
    - intros [|[|a]]; repeat (constructor; cbn; intuition (try discriminate)).
  Qed.
  Lemma allrun : all_run E.
  Proof.
    intros [|[|[|[|i]]]] H; [exists 1|exists 2|exists 3|exists 2|cbn in H; lia]; eexists; (split; [reflexivity|reflexivity]).
  Qed.
  Lemma acyc : acyclic E.
  Proof. exists (fun i => i). intros [|[|a]] b; cbn; intuition (try lia). Qed.
  Lemma follows_cases u v : follows E u v -> (u = 0 /\ v = 1 \/ u = 1 /\ v = 2 \/ u = 1 /\ v = 3)%nat.
  Proof. intros (_ & _ & H). destruct u as [|[|u]]; cbn in H; intuition (try lia). Qed.
  Lemma calendar : on_calendar E pos.
  Proof.
    split; [|split].
    - intros u v o F M. assert (L : (u < 4 /\ v < 4)%nat) by (destruct F as (A & B & _); exact (conj A B)).
      apply (meets_iff E input u v o) in M; [|apply L|apply L]. destruct M as (_ & ->).
      destruct (follows_cases u v F) as [(-> & ->)|[(-> & ->)|(-> & ->)]]; reflexivity.
    - intros u v d F _ _. assert (L : (u < 4 /\ v < 4)%nat) by (destruct F as (A & B & _); exact (conj A B)).
      exists (day_change E u v). apply (meets_iff E input u v); [apply L|apply L|]. split; [|reflexivity].
      destruct (follows_cases u v F) as [(-> & ->)|[(-> & ->)|(-> & ->)]]; reflexivity.
    - intros u v d H _ _. exact H.
  Qed.
  Lemma outcome : option_map (map view) (run_all E same_order 10) = Some [
    ([10; 11; 13]%nat, [1430; 1450; 1460; 1500; 1510; 1620], [2], [st 1; st 2; st 3; st 5]);
    ([10; 11; 12]%nat, [1430; 1450; 1460; 1500; 1510; 1560], [2], [st 1; st 2; st 3; st 4]);
    ([10; 11; 13]%nat, [1430; 1450; 1460; 1500; 1510; 1620], [1], [st 1; st 2; st 3; st 5])].
  Proof. vm_compute. reflexivity. Qed.
  Example hypotheses : (forall it k l, Permutation (same_order it k l) l) /\ input_ok E /\ all_run E /\ acyclic E /\ consistent E /\
    exists out, build_seated_trips E same_order out /\ length out = 3%nat.
  Proof.
    split; [exact same_order_perm|]. split; [exact input|]. split; [exact allrun|]. split; [exact acyc|]. split; [exists pos; exact calendar|].
    pose proof outcome as O. destruct (run_all E same_order 10) as [out|] eqn:R; [|discriminate]. exists out. split; [exact (run_all_build E same_order 10 out R)|].
    injection O as O. rewrite <- (map_length view), O. reflexivity.
  Qed.
End SeatedEx.

(** What happens outside the hypotheses: these inputs are legal, but their result is not what a passenger expects. *)
Ltac show_input :=
  split; [intros t H; repeat (destruct H as [<-|H]; [eexists; reflexivity|]); destruct H
         |intros t H; repeat (destruct H as [<-|H]; [split; [repeat (constructor; try lia)|do 2 eexists; split; [reflexivity|lia]]|]); destruct H
         |intros t d H Hd; repeat (destruct H as [<-|H]; [cbn in Hd; repeat (apply orb_true_iff in Hd; destruct Hd as [Hd|Hd]; [apply Z.eqb_eq in Hd; lia|]); discriminate|]); destruct H
         | |].
Section SeatedBad.
  Definition st (l : Z) := mk_ss l true true.
  Definition trip (k : nat) (t : list Z) (d : list Z) (a b : Z) := mk_ut [k] t (on_days d) [st a; st b].
  Definition table (l : list (nat * nat)) (a : nat) : list nat := map snd (filter (fun x => Nat.eqb (fst x) a) l).
  Definition flip (l : list (nat * nat)) : list (nat * nat) := map (fun x => (snd x, fst x)) l.
  Definition make (trips : list utc_trip) (rule : nat -> nat) (l : list (nat * nat)) := mk_es trips rule (table (flip l)) (table l).
  Lemma table_In l a b : In b (table l a) <-> In (a, b) l.
  Proof.
    unfold table. rewrite in_map_iff. split.
    - intros ((x, y) & Hy & H). cbn in Hy. subst y. apply filter_In in H. destruct H as (H & E). apply Nat.eqb_eq in E. cbn in E. subst. exact H.
    - intros H. exists (a, b). split; [reflexivity|]. apply filter_In. split; [exact H|]. apply Nat.eqb_refl.
  Qed.
  Lemma make_rules trips rule l a b : In b (es_out (make trips rule l) a) <-> In a (es_in (make trips rule l) b).
  Proof.
    cbn [make es_out es_in]. rewrite !table_In. unfold flip. rewrite in_map_iff. split.
    - intros H. exists (a, b). auto.
    - intros ((x, y) & E & H). injection E as <- <-. exact H.
  Qed.
  Lemma make_nodup trips rule l a : NoDup l -> NoDup (es_out (make trips rule l) a).
  Proof.
    cbn [make es_out]. unfold table. intros N. induction N as [|(x, y) l H N IH]; [constructor|]. cbn [filter fst]. destruct (Nat.eqb_spec x a) as [->|]; [|exact IH].
    cbn [map]. constructor; [|exact IH]. intros H'. apply H. apply in_map_iff in H'. destruct H' as ((x', y') & E & H'). cbn in E. subst y'.
    apply filter_In in H'. destruct H' as (H' & E). apply Nat.eqb_eq in E. cbn in E. subst. exact H'.
  Qed.

  (** a, b, c one after the other, and c is followed by b again (on the next morning, after more than two hours): the search never ends. *)
  Definition cyclic : expanded_seated := make [trip 10 [0; 10] [1] 1 2; trip 11 [20; 30] [1] 2 3; trip 12 [40; 50] [1] 3 2] (fun i => i) [(0, 1); (1, 2); (2, 1)]%nat.
  Lemma cyclic_ok : input_ok cyclic /\ all_run cyclic.
  Proof.
    split.
    - unfold cyclic. show_input; [apply make_rules|]. intros a. apply make_nodup. repeat (constructor; cbn; intuition (try discriminate)).
    - intros [|[|[|i]]] H; [exists 1; eexists; split; reflexivity ..|cbn in H; lia].
  Qed.
  Definition comp3 : list (nat * Z) := [(0%nat, 0); (1%nat, 0); (2%nat, 0)].
  Lemma cyclic_dfs f : forall curr r o, (r < 3)%nat -> dfs cyclic f comp3 [(curr, r, o)] = None.
  Proof.
    induction f as [|f IH]; intros curr r o Hr; [reflexivity|]. destruct r as [|[|[|r]]]; [| | |lia];
      cbn [dfs nexts]; unfold comp3, cyclic, make; cbn [es_out table filter map flat_map fst snd Nat.eqb get_representative find es_rule app rev]; apply IH; lia.
  Qed.
  Lemma cyclic_grow : option_map fst (grow cyclic same_order 100 0 0 (fun i => ut_days (trip_of cyclic i)) [(0%nat, 0)] [] (ut_days (trip_of cyclic 0))) = Some comp3.
  Proof. vm_compute. reflexivity. Qed.
  Theorem C64_cyclic_rules_hang : input_ok cyclic /\ all_run cyclic /\ forall out, ~ build_seated_trips cyclic same_order out.
  Proof.
    split; [apply cyclic_ok|]. split; [apply cyclic_ok|]. intros out H. unfold build_seated_trips in H. cbv zeta in H.
    assert (Nx : next_set_bit cyclic (fun i => Nat.ltb i (length (es_trips cyclic))) 0 = Some 0%nat) by (vm_compute; reflexivity).
    rewrite Nx in H. inversion H as [|? ? ? ? f c d f' p o G c' HD rem' bits' HL]; subst.
    pose proof cyclic_grow as CG. destruct (grow cyclic same_order 100 0 0 (fun i => ut_days (trip_of cyclic i)) [(0%nat, 0)] [] (ut_days (trip_of cyclic 0))) as [(c2, d2)|] eqn:G2; [|discriminate].
    cbn in CG. injection CG as ->. pose proof (grow_det cyclic same_order _ _ _ _ _ _ _ _ _ _ G G2) as X. injection X as -> ->.
    unfold c', same_order in HD. assert (S : exists e, rev (starts cyclic comp3 d2) = [(e, 0%nat, 0)]) by (eexists; reflexivity).
    destruct S as (e & S). rewrite S in HD. rewrite cyclic_dfs in HD by lia. discriminate.
  Qed.

  (** a is followed by b and b by a, and nothing leads into the two: both vanish. *)
  Definition ring : expanded_seated := make [trip 10 [0; 10] [1] 1 2; trip 11 [20; 30] [1] 2 1] (fun i => i) [(0, 1); (1, 0)]%nat.
  Theorem C64_ring_lost : input_ok ring /\ all_run ring /\ build_seated_trips ring same_order [] /\ runs ring 0 1 /\ runs ring 1 1.
  Proof.
    split; [unfold ring; show_input; [apply make_rules|intros a; apply make_nodup; repeat (constructor; cbn; intuition (try discriminate))]|].
    split; [intros [|[|i]] H; [exists 1; eexists; split; reflexivity ..|cbn in H; lia]|].
    split; [apply (run_all_build ring same_order 10); vm_compute; reflexivity|]. split; eexists; split; reflexivity.
  Qed.

  (** a is followed by trip b, which runs twice (its frequency makes two variants): the second run of b vanishes. *)
  Definition variants : expanded_seated :=
    make [trip 10 [0; 10] [1] 1 2; trip 11 [20; 30] [1] 2 3; trip 11 [60; 70] [1] 2 3] (fun i => match i with O => 0 | _ => 1 end)%nat [(0, 1)]%nat.
  Theorem C64_variants_lost : input_ok variants /\ all_run variants /\ acyclic variants /\
    exists out, build_seated_trips variants same_order out /\ runs variants 2 1 /\
      forall j, In j out -> ut_trips j = [10; 11]%nat /\ ut_times j = [0; 10; 20; 30].
  Proof.
    split; [unfold variants; show_input; [apply make_rules|intros a; apply make_nodup; repeat (constructor; cbn; intuition (try discriminate))]|].
    split; [intros [|[|[|i]]] H; [exists 1; eexists; split; reflexivity ..|cbn in H; lia]|].
    split; [exists (fun i => i); intros [|a] b H; cbn in H; [destruct H as [<-|[]]; lia|destruct H]|].
    assert (O : option_map (map (fun j => (ut_trips j, ut_times j))) (run_all variants same_order 10) = Some [([10; 11]%nat, [0; 10; 20; 30])]) by (vm_compute; reflexivity).
    destruct (run_all variants same_order 10) as [out|] eqn:R; [|discriminate]. exists out. split; [exact (run_all_build variants same_order 10 out R)|].
    split; [eexists; split; reflexivity|]. injection O as O. intros j Hj. pose proof (in_map (fun j => (ut_trips j, ut_times j)) out j Hj) as I. rewrite O in I.
    destruct I as [I|[]]. cbv beta in I. injection I as I1 I2. auto.
  Qed.

  (** x and y can both be followed by d and by z, but d departs before y arrives: a transport that goes back in time is built. *)
  Definition unsorted : expanded_seated :=
    make [trip 10 [0; 100] [1] 1 5; trip 11 [10; 140] [1] 2 5; trip 12 [120; 130] [1] 5 6; trip 13 [150; 160] [1] 5 7] (fun i => i) [(0, 2); (0, 3); (1, 2); (1, 3)]%nat.
  Theorem C64_unsorted_times : input_ok unsorted /\ all_run unsorted /\ acyclic unsorted /\
    exists out j, build_seated_trips unsorted same_order out /\ In j out /\ ut_times j = [10; 140; 120; 130] /\ ut_days j 1 = true.
  Proof.
    split; [unfold unsorted; show_input; [apply make_rules|intros a; apply make_nodup; repeat (constructor; cbn; intuition (try discriminate))]|].
    split; [intros [|[|[|[|i]]]] H; [exists 1; eexists; split; reflexivity ..|cbn in H; lia]|].
    split; [exists (fun i => i); intros [|[|a]] b H; cbn in H; intuition lia|].
    assert (O : option_map (fun out => existsb (fun j => ut_days j 1 && (if list_eq_dec Z.eq_dec (ut_times j) [10; 140; 120; 130] then true else false)) out) (run_all unsorted same_order 10) = Some true) by (vm_compute; reflexivity).
    destruct (run_all unsorted same_order 10) as [out|] eqn:R; [|discriminate]. exists out. injection O as O. apply existsb_exists in O. destruct O as (j & Hj & O).
    apply andb_true_iff in O. destruct O as (D & T). exists j. split; [exact (run_all_build unsorted same_order 10 out R)|]. split; [exact Hj|]. split; [|exact D].
    destruct (list_eq_dec Z.eq_dec (ut_times j) [10; 140; 120; 130]) as [e|]; [exact e|discriminate].
  Qed.

  (** The last stop of a forbids boarding, the first stop of b - the same place - allows it: nobody can board b there. *)
  Definition junction : expanded_seated :=
    make [mk_ut [10%nat] [0; 10] (on_days [1]) [mk_ss 1 true true; mk_ss 2 false true]; mk_ut [11%nat] [20; 30] (on_days [1]) [mk_ss 2 true true; mk_ss 3 true true]] (fun i => i) [(0, 1)]%nat.
  Theorem C64_boarding_lost : input_ok junction /\ all_run junction /\ acyclic junction /\
    exists out, build_seated_trips junction same_order out /\ map view out = [([10; 11]%nat, [0; 10; 20; 30], [1], [mk_ss 1 true true; mk_ss 2 false true; mk_ss 3 true true])].
  Proof.
    split; [unfold junction; show_input; [apply make_rules|intros a; apply make_nodup; repeat (constructor; cbn; intuition (try discriminate))]|].
    split; [intros [|[|i]] H; [exists 1; eexists; split; reflexivity ..|cbn in H; lia]|].
    split; [exists (fun i => i); intros [|a] b H; cbn in H; [destruct H as [<-|[]]; lia|destruct H]|].
    assert (O : option_map (map view) (run_all junction same_order 10) = Some [([10; 11]%nat, [0; 10; 20; 30], [1], [mk_ss 1 true true; mk_ss 2 false true; mk_ss 3 true true])]) by (vm_compute; reflexivity).
    destruct (run_all junction same_order 10) as [out|] eqn:R; [|discriminate]. exists out. split; [exact (run_all_build junction same_order 10 out R)|]. injection O as O. exact O.
  Qed.

  (** NeTEx: journey 1 follows journey 0 and is followed by none: it is added on its own and once more as the end of journey 0. *)
  Definition nx_variants (i : nat) : list utc_trip := match i with O => [trip 0 [0; 10] [1] 1 2] | _ => [trip 1 [20; 30] [1] 2 3] end.
  Definition nx_out (i : nat) : list nat := match i with O => [1%nat] | _ => [] end.
  Definition nx_in (i : nat) : list nat := match i with 1%nat => [0%nat] | _ => [] end.
  Theorem C64_netex_twice : exists out, build_seated_trips (netex_seated 2 nx_variants nx_out nx_in) same_order out /\
    map view (netex_alone 2 nx_variants nx_out ++ out) = [([1%nat], [20; 30], [1], [st 2; st 3]); ([0; 1]%nat, [0; 10; 20; 30], [1], [st 1; st 2; st 3])].
  Proof.
    assert (O : option_map (map view) (run_all (netex_seated 2 nx_variants nx_out nx_in) same_order 10) = Some [([0; 1]%nat, [0; 10; 20; 30], [1], [st 1; st 2; st 3])]) by (vm_compute; reflexivity).
    destruct (run_all (netex_seated 2 nx_variants nx_out nx_in) same_order 10) as [out|] eqn:R; [|discriminate]. exists out. split; [exact (run_all_build _ same_order 10 out R)|].
    rewrite map_app. injection O as O. rewrite O. reflexivity.
  Qed.
End SeatedBad.
