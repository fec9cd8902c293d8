(** C72: VDV / SIRI updates. *)
From Coq Require Import List ZArith Lia Bool Arith.
From Verif Require Import Base Time_Model Time_Proofs Calendar_Model Query_Model Rt_Model Rt_Proofs P_Rt Alert_Model P_Alert Vdv_Model.
From Verif Require Alt_Search.
Import ListNotations.
Local Open Scope Z_scope.

(** * Specification *)
(** A message with stops [vs] for the stops [from, to) of a vehicle that is planned at [sched k arrival?]; [loc k]: where it
    stops; [same_place]: equivalent locations. *)
Section Spec.
  Variables (same_place : nat -> nat -> bool) (sched : nat -> bool -> Z) (loc : nat -> nat) (from to : nat) (vs : list vstop).
  Definition planned (a : bool) (v : vstop) : option Z := if a then v_arr v else v_dep v.
  Definition predicted (a : bool) (v : vstop) : option Z := if a then v_rt_arr v else v_rt_dep v.
  (** The event exists on this run: no arrival at the first stop of the vehicle, no departure at the end of the run. *)
  Definition HasEvent (k : nat) (a : bool) : Prop := if a then k <> O else S k <> to.
  (** Planned times differ by at most 15 minutes. *)
  Definition EvFits (k : nat) (a : bool) (v : vstop) : Prop :=
    HasEvent k a /\ exists p, planned a v = Some p /\ Z.abs (p - sched k a) <= 15.
  Definition Fits (k : nat) (v : vstop) : Prop :=
    (exists l, v_loc v = Some l /\ same_place (loc k) l = true) /\ (EvFits k true v \/ EvFits k false v).
  (** Which message stop each stop of the vehicle is matched to: in order, the first one that fits behind those already used. *)
  Definition Unused (m : nat -> option nat) (k j : nat) : Prop := forall k' j', (from <= k' < k)%nat -> m k' = Some j' -> (j' < j)%nat.
  Definition Greedy (m : nat -> option nat) (until : nat) : Prop := forall k, (from <= k < until)%nat ->
    match m k with
    | Some j => Unused m k j /\ (exists v, nth_error vs j = Some v /\ Fits k v) /\
        (forall j' v, (j' < j)%nat -> Unused m k j' -> nth_error vs j' = Some v -> ~ Fits k v)
    | None => forall j' v, Unused m k j' -> nth_error vs j' = Some v -> ~ Fits k v
    end.
  Definition MatchedTo (m : nat -> option nat) (k : nat) (v : vstop) : Prop := exists j, m k = Some j /\ nth_error vs j = Some v.
  (** The delay a stop reports: of its departure if predicted, otherwise of its arrival. *)
  Definition Reports (m : nat -> option nat) (k : nat) (a : bool) (d : Z) : Prop :=
    exists v t, MatchedTo m k v /\ EvFits k a v /\ predicted a v = Some t /\ d = t - sched k a.
  Definition StopDelay (m : nat -> option nat) (k : nat) (d : Z) : Prop :=
    Reports m k false d \/ (Reports m k true d /\ forall d', ~ Reports m k false d').
  (** The latest report up to stop [k]. *)
  Definition Delay (m : nat -> option nat) (k : nat) (d : Z) : Prop :=
    exists k', (from <= k' <= k)%nat /\ StopDelay m k' d /\ forall k2 d2, (k' < k2 <= k)%nat -> ~ StopDelay m k2 d2.
  (** What the message says about an event: [Some t]: it takes place at [t]; [None]: nothing. *)
  Inductive Says (m : nat -> option nat) (k : nat) (a : bool) : option Z -> Prop :=
  | S_event v : MatchedTo m k v -> EvFits k a v -> Says m k a (predicted a v)
  | S_delay d : HasEvent k a -> (forall v, MatchedTo m k v -> ~ EvFits k a v) -> Delay m k d -> Says m k a (Some (sched k a + d))
  | S_nothing : (forall v, MatchedTo m k v -> ~ EvFits k a v) -> (HasEvent k a -> forall d, ~ Delay m k d) -> Says m k a None.
  (** Boarding and alighting at a matched stop; [w] is the old stop, [wsched] the scheduled one (wheelchair flags). *)
  Definition CanBoard (v : vstop) : bool := negb (v_no_in v || v_pass v || v_dep_c v).
  Definition CanAlight (v : vstop) : bool := negb (v_no_out v || v_pass v || v_arr_c v).
  Definition StopAs (wsched w : stop) (v : vstop) : stop :=
    mk_stop (s_loc w) (CanBoard v) (CanAlight v) (s_win wsched && CanBoard v) (s_wout wsched && CanAlight v).
End Spec.

(** * Proofs *)
Section Loop.
  Variables (tt : stt) (eqv : nat -> nat -> bool) (ti : nat) (day : Z) (from to : nat) (base : Z) (vs : list vstop).
  Variables (ts0 ws0 : list Z).
  Variable N : nat.
  Hypothesis LT : length ts0 = (2 * N - 2)%nat.
  Hypothesis LW : length ws0 = N.
  Hypothesis TO : (to <= N)%nat.
  Let sched := s_event tt ti day.
  Let loc (k : nat) := word_loc (nth k ws0 0).
  Let wl (k : nat) (w : Z) := word_loc w = loc k.
  Definition fits_ev (a : bool) (k : nat) (v : vstop) : bool := if a then fits_arr tt ti day k v else fits_dep tt ti day to k v.
  Lemma fits_ev_spec k a v : fits_ev a k v = true <-> EvFits sched to k a v.
  Proof.
    unfold fits_ev, EvFits, HasEvent, planned, fits_arr, fits_dep, close, kAllowedTimeDiscrepancy, sched.
    destruct a; rewrite andb_true_iff, negb_true_iff, Nat.eqb_neq; split.
    - intros (A & B). split; [exact A|]. destruct (v_arr v) as [p|]; [|discriminate]. exists p. split; [reflexivity|]. now apply Z.leb_le.
    - intros (A & p & B & C). split; [exact A|]. rewrite B. now apply Z.leb_le.
    - intros (A & B). split; [exact A|]. destruct (v_dep v) as [p|]; [|discriminate]. exists p. split; [reflexivity|]. now apply Z.leb_le.
    - intros (A & p & B & C). split; [exact A|]. rewrite B. now apply Z.leb_le.
  Qed.
  Lemma fits_spec w k v : word_loc w = loc k -> (fits tt eqv ti day to w k v = true <-> Fits eqv sched loc to k v).
  Proof.
    intros E. unfold fits, Fits. rewrite <- E. rewrite <- (fits_ev_spec k true v), <- (fits_ev_spec k false v). unfold fits_ev.
    destruct (v_loc v) as [l|]; [|split; [discriminate|intros ((l & H & _) & _); discriminate]].
    rewrite andb_true_iff, orb_true_iff. split.
    - intros (A & B). split; [exists l; auto|exact B].
    - intros ((l' & [= <-] & A) & B). auto.
  Qed.
  Lemma find_match_some w k : forall l v rest, find_match tt eqv ti day to w k l = Some (v, rest) ->
    exists n, nth_error l n = Some v /\ fits tt eqv ti day to w k v = true /\ rest = skipn (S n) l /\
      forall n' v', (n' < n)%nat -> nth_error l n' = Some v' -> fits tt eqv ti day to w k v' = false.
  Proof.
    induction l as [|x l IH]; intros v rest H; [discriminate|]. cbn [find_match] in H. destruct (fits tt eqv ti day to w k x) eqn:E.
    - injection H as <- <-. exists O. split; [reflexivity|]. split; [exact E|]. split; [reflexivity|]. intros; lia.
    - apply IH in H. destruct H as (n & A & B & C & D). exists (S n). split; [exact A|]. split; [exact B|]. split; [exact C|].
      intros [|n'] v' L H; [injection H as <-; exact E|]. apply (D n'); [lia|exact H].
  Qed.
  Lemma find_match_none w k : forall l, find_match tt eqv ti day to w k l = None -> forall n v, nth_error l n = Some v -> fits tt eqv ti day to w k v = false.
  Proof.
    induction l as [|x l IH]; intros H n v E; [destruct n; discriminate|]. cbn [find_match] in H. destruct (fits tt eqv ti day to w k x) eqn:F; [discriminate|].
    destruct n as [|n]; [injection E as <-; exact F|]. eapply IH; eauto.
  Qed.

  (** One step. *)
  Definition step_delay (o : option vstop) (k : nat) (delay : option Z) : option Z :=
    match o with
    | Some v =>
        let d1 := if fits_ev true k v then match v_rt_arr v with Some t => Some (t - sched k true) | None => delay end else delay in
        if fits_ev false k v then match v_rt_dep v with Some t => Some (t - sched k false) | None => d1 end else d1
    | None => delay
    end.
  Definition has_ev (k : nat) (a : bool) : bool := if a then negb (Nat.eqb k 0) else negb (Nat.eqb (S k) to).
  Definition step_says (o : option vstop) (k : nat) (a : bool) (d2 : option Z) : option Z :=
    let other := if has_ev k a then option_map (fun d => sched k a + d) d2 else None in
    match o with
    | Some v => if fits_ev a k v then predicted a v else other
    | None => other
    end.
  Definition valid (k : nat) (a : bool) : Prop := if a then (0 < k)%nat else True.
  Lemma nth_put ts k a t k' a' : length ts = length ts0 -> (k < to)%nat -> has_ev k a = true -> valid k' a' ->
    nth (ev_idx k' a') (put base ts k a t) 0 = if Nat.eqb k' k && Bool.eqb a' a then clamp16 (t - base) else nth (ev_idx k' a') ts 0.
  Proof.
    intros L K H V. unfold put. rewrite nth_set_nth, L, LT.
    assert (X : Nat.ltb (ev_idx k a) (2 * N - 2) = true).
    { apply Nat.ltb_lt. unfold has_ev in H. unfold ev_idx. destruct a; apply negb_true_iff, Nat.eqb_neq in H; lia. }
    rewrite X, andb_true_r. assert (VK : a = true -> (0 < k)%nat) by (intros ->; cbn in H; apply negb_true_iff, Nat.eqb_neq in H; lia).
    destruct (Nat.eqb_spec (ev_idx k a) (ev_idx k' a')) as [E|E].
    - apply ev_idx_inj in E; [|exact VK|intros ->; exact V]. destruct E as (-> & ->). now rewrite Nat.eqb_refl, Bool.eqb_reflx.
    - destruct (Nat.eqb_spec k' k) as [->|]; [|reflexivity]. destruct (Bool.eqb_spec a' a) as [->|]; [contradiction|reflexivity].
  Qed.
  Lemma put_len ts k a t : length (put base ts k a t) = length ts.
  Proof. apply set_nth_length. Qed.
  Lemma fits_has a k v : fits_ev a k v = true -> has_ev k a = true.
  Proof. unfold fits_ev, has_ev, fits_arr, fits_dep. destruct a; intros H; now apply andb_true_iff in H. Qed.
  (** Conditional writes. *)
  Definition wr (b : bool) (ts : list Z) (k : nat) (a : bool) (o : option Z) : list Z := if b then match o with Some t => put base ts k a t | None => ts end else ts.
  Lemma wr_len b ts k a o : length (wr b ts k a o) = length ts.
  Proof. unfold wr. destruct b; [destruct o|]; auto using put_len. Qed.
  Lemma nth_wr b ts k a o k' a' : length ts = length ts0 -> (k < to)%nat -> (b = true -> has_ev k a = true) -> valid k' a' ->
    nth (ev_idx k' a') (wr b ts k a o) 0 = if Nat.eqb k' k && Bool.eqb a' a && b then match o with Some t => clamp16 (t - base) | None => nth (ev_idx k' a') ts 0 end
                                       else nth (ev_idx k' a') ts 0.
  Proof.
    intros L K H V. unfold wr. destruct b.
    - rewrite andb_true_r. destruct o as [t|]; [apply nth_put; auto|]. now destruct (_ && _).
    - now rewrite andb_false_r.
  Qed.
  Lemma step_eq ts ws l delay k :
    let o := match find_match tt eqv ti day to (nth k ws 0) k l with Some (v, _) => Some v | None => None end in
    let fa := match o with Some v => fits_ev true k v | None => false end in
    let fd := match o with Some v => fits_ev false k v | None => false end in
    let pa := match o with Some v => v_rt_arr v | None => None end in
    let pd := match o with Some v => v_rt_dep v | None => None end in
    let d2 := step_delay o k delay in
    vdv_step tt eqv ti day to base (ts, ws, l, delay) k =
    (wr (has_ev k false && negb fd) (wr (has_ev k true && negb fa) (wr fd (wr fa ts k true pa) k false pd) k true (option_map (fun d => sched k true + d) d2)) k false (option_map (fun d => sched k false + d) d2),
     match o with Some v => set_nth ws k (new_word tt ti (nth k ws 0) k v) | None => ws end,
     match find_match tt eqv ti day to (nth k ws 0) k l with Some (_, rest) => rest | None => l end, d2).
  Proof.
    cbv zeta. unfold vdv_step. destruct (find_match tt eqv ti day to (nth k ws 0) k l) as [[v rest]|]; cbn [step_delay has_ev fits_ev].
    - unfold update_ev, wr. fold sched. destruct (fits_arr tt ti day k v), (fits_dep tt ti day to k v), (v_rt_arr v), (v_rt_dep v), delay; cbn [option_map andb negb]; rewrite ?andb_true_r, ?andb_false_r;
        try reflexivity; destruct (negb (Nat.eqb k 0)); destruct (negb (Nat.eqb (S k) to)); reflexivity.
    - unfold wr. cbn [andb negb]. fold sched. destruct delay; cbn [option_map]; rewrite ?andb_true_r; destruct (negb (Nat.eqb k 0)), (negb (Nat.eqb (S k) to)); reflexivity.
  Qed.
  Lemma step_spec ts ws l delay k : length ts = length ts0 -> (k < to)%nat ->
    let o := match find_match tt eqv ti day to (nth k ws 0) k l with Some (v, _) => Some v | None => None end in
    let d2 := step_delay o k delay in
    exists ts', vdv_step tt eqv ti day to base (ts, ws, l, delay) k =
      (ts', match o with Some v => set_nth ws k (new_word tt ti (nth k ws 0) k v) | None => ws end,
       match find_match tt eqv ti day to (nth k ws 0) k l with Some (_, rest) => rest | None => l end, d2) /\ length ts' = length ts /\
      forall k' a', valid k' a' -> nth (ev_idx k' a') ts' 0 =
        if Nat.eqb k' k then match step_says o k a' d2 with Some t => clamp16 (t - base) | None => nth (ev_idx k' a') ts 0 end else nth (ev_idx k' a') ts 0.
  Proof.
    intros L K. cbv zeta. rewrite step_eq. cbv zeta.
    set (o := match find_match tt eqv ti day to (nth k ws 0) k l with Some (v, _) => Some v | None => None end).
    set (d2 := step_delay o k delay). eexists. split; [reflexivity|]. split; [now rewrite !wr_len|].
    intros k' a' V.
    assert (FA : forall v, o = Some v -> fits_ev true k v = true -> has_ev k true = true) by (intros; eapply fits_has; eauto).
    assert (FD : forall v, o = Some v -> fits_ev false k v = true -> has_ev k false = true) by (intros; eapply fits_has; eauto).
    rewrite !nth_wr; rewrite ?wr_len; auto; try (intros H; apply andb_true_iff in H; tauto);
      try (intros H; destruct o as [v|]; [eapply fits_has; eauto|discriminate]).
    destruct (Nat.eqb k' k); [|reflexivity]. unfold step_says. destruct a'; cbn [Bool.eqb andb]; destruct o as [v|];
      [destruct (fits_ev true k v) eqn:E1; destruct (has_ev k true) eqn:E2|destruct (has_ev k true) eqn:E2|
       destruct (fits_ev false k v) eqn:E1; destruct (has_ev k false) eqn:E2|destruct (has_ev k false) eqn:E2]; cbn [andb negb predicted]; try reflexivity;
      destruct d2; reflexivity.
  Qed.
  Lemma new_word_spec w k v : stop_of_value (new_word tt ti w k v) = StopAs (stop_of_value (nth k (s_seq tt ti) 0)) (stop_of_value w) v.
  Proof.
    assert (B : 0 <= s_loc (stop_of_value w) < 268435456) by (unfold stop_of_value; cbn [s_loc]; apply Z.mod_pos_bound; lia).
    unfold new_word, word_loc. rewrite Z2Nat.id by lia. rewrite stop_roundtrip by exact B. unfold StopAs, CanBoard, CanAlight.
    rewrite !negb_orb. f_equal.
  Qed.
  Lemma new_word_loc w k v : word_loc (new_word tt ti w k v) = word_loc w.
  Proof. unfold word_loc. now rewrite new_word_spec. Qed.

  (** Invariant after the stops before [K]. *)
  Notation fitsP := (Fits eqv sched loc to).
  Record Inv (K : nat) (m : nat -> option nat) (st : list Z * list Z * list vstop * option Z) : Prop := {
    iv_greedy : Greedy eqv sched loc from to vs m K;
    iv_none : forall k, (K <= k)%nat -> m k = None;
    iv_cur : exists c, snd (fst st) = skipn c vs /\ forall j, (c <= j)%nat <-> Unused from m K j;
    iv_delay : forall d, snd st = Some d <-> (exists k, (from <= k < K)%nat /\ StopDelay sched to vs m k d /\ forall k2 d2, (k < k2 < K)%nat -> ~ StopDelay sched to vs m k2 d2);
    iv_tlen : length (fst (fst (fst st))) = length ts0;
    iv_wlen : length (snd (fst (fst st))) = length ws0;
    iv_times : forall k a, valid k a -> if ((from <=? k) && (k <? K))%nat
        then exists o, Says sched from to vs m k a o /\ nth (ev_idx k a) (fst (fst (fst st))) 0 = match o with Some t => clamp16 (t - base) | None => nth (ev_idx k a) ts0 0 end
        else nth (ev_idx k a) (fst (fst (fst st))) 0 = nth (ev_idx k a) ts0 0;
    iv_words : forall k, match m k with
        | Some j => exists v, nth_error vs j = Some v /\ stop_of_value (nth k (snd (fst (fst st))) 0) = StopAs (stop_of_value (nth k (s_seq tt ti) 0)) (stop_of_value (nth k ws0 0)) v
        | None => nth k (snd (fst (fst st))) 0 = nth k ws0 0 end }.
  (** Extending the matching at [K]. *)
  Definition ext (m : nat -> option nat) (K : nat) (o : option nat) : nat -> option nat := fun k => if Nat.eqb k K then o else m k.
  Lemma ext_lt m K o k : (k < K)%nat -> ext m K o k = m k.
  Proof. intros L. unfold ext. destruct (Nat.eqb_spec k K); [lia|reflexivity]. Qed.
  Lemma ext_eq m K o : ext m K o K = o.
  Proof. unfold ext. now rewrite Nat.eqb_refl. Qed.
  Lemma unused_ext m K o k j : (k <= K)%nat -> (Unused from (ext m K o) k j <-> Unused from m k j).
  Proof. intros L. split; intros H k' j' R E; apply (H k' j' R); [rewrite ext_lt by lia|rewrite ext_lt in E by lia]; exact E. Qed.
  Lemma matched_ext m K o k v : (k < K)%nat -> (MatchedTo vs (ext m K o) k v <-> MatchedTo vs m k v).
  Proof. intros L. unfold MatchedTo. now rewrite ext_lt. Qed.
  Lemma reports_ext m K o k a d : (k < K)%nat -> (Reports sched to vs (ext m K o) k a d <-> Reports sched to vs m k a d).
  Proof. intros L. split; intros (v & t & A & B); exists v, t; (split; [apply (matched_ext m K o k v L); exact A|exact B]). Qed.
  Lemma stop_delay_ext m K o k d : (k < K)%nat -> (StopDelay sched to vs (ext m K o) k d <-> StopDelay sched to vs m k d).
  Proof.
    intros L. unfold StopDelay. rewrite !reports_ext by exact L. split; (intros [H|(H & X)]; [now left|right; split; [exact H|]; intros d' Y; apply (X d')]).
    - apply (reports_ext m K o k false d' L). exact Y.
    - apply (reports_ext m K o k false d' L) in Y. exact Y.
  Qed.
  Lemma delay_ext m K o k d : (k < K)%nat -> (Delay sched from to vs (ext m K o) k d <-> Delay sched from to vs m k d).
  Proof.
    intros L. split; intros (k' & R & A & B); exists k'; (split; [exact R|]); (split; [apply (stop_delay_ext m K o k' d); [lia|exact A]|]);
      intros k2 d2 R2 Y; apply (B k2 d2 R2); apply (stop_delay_ext m K o k2 d2); try lia; exact Y.
  Qed.
  Lemma says_ext m K o k a x : (k < K)%nat -> Says sched from to vs m k a x -> Says sched from to vs (ext m K o) k a x.
  Proof.
    intros L [v A B|d H A B|A B].
    - apply S_event; [|exact B]. now apply matched_ext.
    - apply S_delay; [exact H| |now apply delay_ext]. intros v Y. apply A. now apply (matched_ext m K o k v L).
    - apply S_nothing; [intros v Y; apply A; now apply (matched_ext m K o k v L)|]. intros H d Y. apply (B H d). now apply (delay_ext m K o k d L).
  Qed.
  Lemma has_ev_spec k a : has_ev k a = true <-> HasEvent to k a.
  Proof. unfold has_ev, HasEvent. destruct a; rewrite negb_true_iff, Nat.eqb_neq; reflexivity. Qed.
  (** The delay reported at a stop. *)
  Definition own_delay (o : option vstop) (k : nat) : option Z :=
    match o with
    | Some v => match (if fits_ev false k v then v_rt_dep v else None) with
                | Some t => Some (t - sched k false)
                | None => match (if fits_ev true k v then v_rt_arr v else None) with Some t => Some (t - sched k true) | None => None end
                end
    | None => None end.
  Lemma step_delay_own o k delay : step_delay o k delay = match own_delay o k with Some d => Some d | None => delay end.
  Proof.
    unfold step_delay, own_delay. destruct o as [v|]; [|reflexivity].
    destruct (fits_ev true k v), (fits_ev false k v), (v_rt_arr v), (v_rt_dep v); reflexivity.
  Qed.
  Lemma own_delay_spec m k o d : (forall v, MatchedTo vs m k v <-> o = Some v) -> (StopDelay sched to vs m k d <-> own_delay o k = Some d).
  Proof.
    intros HM.
    assert (R : forall a d', Reports sched to vs m k a d' <-> exists v t, o = Some v /\ fits_ev a k v = true /\ predicted a v = Some t /\ d' = t - sched k a).
    { intros a d'. split; intros (v & t & A & B & C); exists v, t; (split; [apply HM; exact A|]); (split; [apply fits_ev_spec; exact B|exact C]). }
    unfold StopDelay, own_delay. destruct o as [v|].
    - assert (R' : forall a d', Reports sched to vs m k a d' <-> (if fits_ev a k v then predicted a v else None) = Some (d' + sched k a)).
      { intros a d'. rewrite R. split.
        - intros (v' & t & [= <-] & B & C & ->). rewrite B, C. f_equal. lia.
        - intros H. destruct (fits_ev a k v) eqn:E; [|discriminate]. exists v, (d' + sched k a). repeat split; auto. lia. }
      rewrite !R'. cbn [predicted]. destruct (if fits_ev false k v then v_rt_dep v else None) as [t|] eqn:E1.
      + split; [intros [[= H]|(_ & X)]; [f_equal; lia|]|intros [= <-]; left; f_equal; lia]. exfalso. apply (X (t - sched k false)). apply R'. cbn [predicted]. rewrite E1. f_equal. lia.
      + destruct (if fits_ev true k v then v_rt_arr v else None) as [t|] eqn:E2.
        * split; [intros [H|([= H] & _)]; [discriminate|f_equal; lia]|]. intros [= <-]. right. split; [f_equal; lia|]. intros d' Y. apply R' in Y. cbn [predicted] in Y. rewrite E1 in Y. discriminate.
        * split; [intros [H|(H & _)]; discriminate|discriminate].
    - rewrite !R. split; [|discriminate]. intros [(v & t & H & _)|((v & t & H & _) & _)]; discriminate.
  Qed.
  Lemma inv_step K m st : (from <= K)%nat -> (K < to)%nat -> Inv K m st -> exists m', Inv (S K) m' (vdv_step tt eqv ti day to base st K).
  Proof.
    intros HF HK [G Nn (c & HC & HU) D TL WL T W]. destruct st as [[[ts ws] l] delay]. cbn [fst snd] in *. subst l.
    assert (LOC : word_loc (nth K ws 0) = loc K) by (unfold loc; specialize (W K); rewrite (Nn K) in W by lia; now rewrite W).
    destruct (step_spec ts ws (skipn c vs) delay K TL HK) as (ts' & ES & TL' & TS). rewrite ES. clear ES.
    set (fm := find_match tt eqv ti day to (nth K ws 0) K (skipn c vs)) in *.
    set (ov := match fm with Some (v, _) => Some v | None => None end) in *.
    assert (FM : match fm with
                 | Some (v, rest) => exists j, (c <= j)%nat /\ nth_error vs j = Some v /\ fitsP K v /\ rest = skipn (S j) vs /\
                     forall j' v', (c <= j' < j)%nat -> nth_error vs j' = Some v' -> ~ fitsP K v'
                 | None => forall j v, (c <= j)%nat -> nth_error vs j = Some v -> ~ fitsP K v end).
    { subst fm. destruct (find_match tt eqv ti day to (nth K ws 0) K (skipn c vs)) as [[v rest]|] eqn:E.
      - apply find_match_some in E. destruct E as (n & A & B & C & X). exists (c + n)%nat. rewrite Alt_Search.nth_error_skipn in A. split; [lia|]. split; [exact A|].
        split; [now apply (fits_spec (nth K ws 0) K v LOC)|]. split; [rewrite C; clear; rewrite skipn_skipn; f_equal; lia|]. intros j' v' R E' F'.
        apply (fits_spec (nth K ws 0) K v' LOC) in F'. rewrite (X (j' - c)%nat v') in F'; [discriminate|lia|]. rewrite Alt_Search.nth_error_skipn. replace (c + (j' - c))%nat with j' by lia. exact E'.
      - intros j v R E' F'. apply (fits_spec (nth K ws 0) K v LOC) in F'. rewrite (find_match_none _ _ _ E (j - c)%nat v) in F'; [discriminate|].
        rewrite Alt_Search.nth_error_skipn. replace (c + (j - c))%nat with j by lia. exact E'. }
    set (oj := match fm with Some _ => True | None => False end) in *.
    assert (EX : exists o, (match o with Some j => exists v, ov = Some v /\ nth_error vs j = Some v /\ (c <= j)%nat /\ fitsP K v /\
                     (forall j' v', (c <= j' < j)%nat -> nth_error vs j' = Some v' -> ~ fitsP K v') /\ match fm with Some (_, rest) => rest | None => skipn c vs end = skipn (S j) vs
                   | None => ov = None /\ (forall j v, (c <= j)%nat -> nth_error vs j = Some v -> ~ fitsP K v) /\ match fm with Some (_, rest) => rest | None => skipn c vs end = skipn c vs end)).
    { subst ov. destruct fm as [[v rest]|].
      - destruct FM as (j & A & B & C & E & F). exists (Some j). exists v. exact (conj eq_refl (conj B (conj A (conj C (conj F E))))).
      - exists None. exact (conj eq_refl (conj FM eq_refl)). }
    destruct EX as (o & HO). clear FM oj. exists (ext m K o).
    assert (HM : forall v, MatchedTo vs (ext m K o) K v <-> ov = Some v).
    { intros v. unfold MatchedTo. rewrite ext_eq. destruct o as [j|].
      - destruct HO as (v0 & -> & E & _). split; [intros (j' & [= <-] & E'); congruence|intros [= <-]; eauto].
      - destruct HO as (-> & _). split; [intros (j' & H & _); discriminate|discriminate]. }
    set (d2 := step_delay ov K delay) in *.
    assert (HD : forall d, d2 = Some d <-> Delay sched from to vs (ext m K o) K d).
    { intros d. unfold d2. rewrite step_delay_own. unfold Delay. destruct (own_delay ov K) as [d0|] eqn:EO.
      - split.
        + intros [= <-]. exists K. split; [lia|]. split; [now apply (own_delay_spec (ext m K o) K ov d0 HM)|]. intros; lia.
        + intros (k' & R & A & B). destruct (Nat.eq_dec k' K) as [->|NE].
          * apply (own_delay_spec (ext m K o) K ov d HM) in A. congruence.
          * exfalso. apply (B K d0); [lia|]. now apply (own_delay_spec (ext m K o) K ov d0 HM).
      - rewrite D. split.
        + intros (k' & R & A & B). exists k'. split; [lia|]. split; [apply stop_delay_ext; [lia|exact A]|]. intros k2 d2' R2 Y.
          destruct (Nat.eq_dec k2 K) as [->|NE].
          * apply (own_delay_spec (ext m K o) K ov d2' HM) in Y. congruence.
          * apply (B k2 d2'); [lia|]. apply (stop_delay_ext m K o k2 d2'); [lia|exact Y].
        + intros (k' & R & A & B). destruct (Nat.eq_dec k' K) as [->|NE].
          * apply (own_delay_spec (ext m K o) K ov d HM) in A. congruence.
          * exists k'. split; [lia|]. split; [apply (stop_delay_ext m K o k' d); [lia|exact A]|]. intros k2 d2' R2 Y. apply (B k2 d2'); [lia|]. apply stop_delay_ext; [lia|exact Y]. }
    assert (HS : forall a, Says sched from to vs (ext m K o) K a (step_says ov K a d2)).
    { intros a. unfold step_says.
      assert (OTHER : (forall v, MatchedTo vs (ext m K o) K v -> ~ EvFits sched to K a v) ->
                Says sched from to vs (ext m K o) K a (if has_ev K a then option_map (fun d => sched K a + d) d2 else None)).
      { intros NF. destruct (has_ev K a) eqn:EH.
        - apply has_ev_spec in EH. destruct d2 as [d|] eqn:E2; cbn [option_map].
          + apply S_delay; auto. now apply HD.
          + apply S_nothing; auto. intros _ d Y. apply HD in Y. discriminate.
        - apply S_nothing; auto. intros Y. apply has_ev_spec in Y. congruence. }
      destruct ov as [v|] eqn:EV.
      - destruct (fits_ev a K v) eqn:EF.
        + apply S_event; [now apply HM|now apply fits_ev_spec].
        + apply OTHER. intros v' Y Z'. apply HM in Y. injection Y as <-. apply fits_ev_spec in Z'. congruence.
      - apply OTHER. intros v' Y. apply HM in Y. discriminate. }
    assert (WK : forall j, o = Some j -> (K < length ws)%nat) by (intros; rewrite WL, LW; lia).
    constructor; cbn [fst snd].
    - (* greedy *) intros k R. destruct (Nat.eq_dec k K) as [->|NE].
      + rewrite ext_eq. destruct o as [j|].
        * destruct HO as (v & _ & E & R2 & F & FF & _). split; [apply unused_ext; [lia|]; now apply HU|]. split; [eauto|].
          intros j' v' L U E' F'. apply (unused_ext m K (Some j) K j') in U; [|lia]. apply HU in U. apply (FF j' v'); auto.
        * destruct HO as (_ & FF & _). intros j' v' U E' F'. apply (unused_ext m K None K j') in U; [|lia]. apply HU in U. apply (FF j' v'); auto.
      + specialize (G k ltac:(lia)). rewrite ext_lt by lia. destruct (m k) as [j|].
        * destruct G as (G1 & G2 & G3). split; [apply unused_ext; [lia|exact G1]|]. split; [exact G2|]. intros j' v' L U. apply (unused_ext m K o k j') in U; [|lia]. eauto.
        * intros j' v' U. apply (unused_ext m K o k j') in U; [|lia]. eauto.
    - intros k L. unfold ext. destruct (Nat.eqb_spec k K); [lia|]. apply Nn. lia.
    - (* cursor *) destruct o as [j|].
      + destruct HO as (v & _ & E & R2 & F & FF & ER). exists (S j). split; [exact ER|]. intros j2. split.
        * intros L k' j' R E'. destruct (Nat.eq_dec k' K) as [->|NE]; [rewrite ext_eq in E'; injection E' as <-; lia|].
          rewrite ext_lt in E' by lia. assert (U : Unused from m K j) by (apply HU; lia). specialize (U k' j' ltac:(lia) E'). lia.
        * intros U. specialize (U K j ltac:(lia)). rewrite ext_eq in U. specialize (U eq_refl). lia.
      + destruct HO as (_ & _ & ER). exists c. split; [exact ER|]. intros j2. rewrite HU. split.
        * intros U k' j' R E'. destruct (Nat.eq_dec k' K) as [->|NE]; [rewrite ext_eq in E'; discriminate|]. rewrite ext_lt in E' by lia. apply (U k' j'); [lia|exact E'].
        * intros U k' j' R E'. apply (U k' j'); [lia|]. rewrite ext_lt by lia. exact E'.
    - (* delay *) intros d. rewrite HD. unfold Delay. split; intros (k' & R & A & B); exists k'; (split; [lia|]); (split; [exact A|]); intros k2 d2' R2; apply B; lia.
    - congruence.
    - destruct ov; [rewrite set_nth_length|]; exact WL.
    - (* times *) intros k a V. rewrite (TS k a V). specialize (T k a V). destruct (Nat.eqb_spec k K) as [->|NE].
      + assert (E1 : ((from <=? K) && (K <? K))%nat = false) by (rewrite Nat.ltb_irrefl; apply andb_false_r). rewrite E1 in T.
        assert (E2 : ((from <=? K) && (K <? S K))%nat = true) by (apply andb_true_iff; split; [apply Nat.leb_le; lia|apply Nat.ltb_lt; lia]). rewrite E2.
        exists (step_says ov K a d2). split; [apply HS|]. destruct (step_says ov K a d2); [reflexivity|exact T].
      + assert (E : ((from <=? k) && (k <? S K))%nat = ((from <=? k) && (k <? K))%nat) by (f_equal; destruct (Nat.ltb_spec k (S K)), (Nat.ltb_spec k K); auto; lia). rewrite E.
        destruct ((from <=? k) && (k <? K))%nat eqn:E3; [|exact T]. apply andb_true_iff in E3. destruct E3 as (_ & E3). apply Nat.ltb_lt in E3.
        destruct T as (x & A & B). exists x. split; [apply says_ext; auto|exact B].
    - (* words *) intros k. specialize (W k). destruct (Nat.eq_dec k K) as [->|NE].
      + rewrite ext_eq. rewrite (Nn K) in W by lia. destruct o as [j|].
        * destruct HO as (v & EV & E & _). rewrite EV. exists v. split; [exact E|]. rewrite nth_set_nth_eq by (eapply WK; eauto). rewrite new_word_spec. now rewrite W.
        * destruct HO as (EV & _). rewrite EV. exact W.
      + assert (E1 : ext m K o k = m k) by (unfold ext; destruct (Nat.eqb_spec k K); congruence). rewrite E1.
        assert (E2 : nth k (match ov with Some v => set_nth ws K (new_word tt ti (nth K ws 0) K v) | None => ws end) 0 = nth k ws 0)
          by (destruct ov; [apply nth_set_nth_neq; congruence|reflexivity]).
        rewrite E2. exact W.
  Qed.
  Lemma inv_loop n : forall K m st, (from <= K)%nat -> (K + n <= to)%nat -> Inv K m st -> exists m', Inv (K + n) m' (fold_left (vdv_step tt eqv ti day to base) (seq K n) st).
  Proof.
    induction n as [|n IH]; intros K m st HF HK H; cbn [seq fold_left].
    - rewrite Nat.add_0_r. eauto.
    - destruct (inv_step K m st) as (m1 & H1); [exact HF|lia|exact H|]. destruct (IH (S K) m1 _ ltac:(lia) ltac:(lia) H1) as (m2 & H2). exists m2. replace (K + S n)%nat with (S K + n)%nat by lia. exact H2.
  Qed.
  Lemma inv_init : Inv from (fun _ => None) (ts0, ws0, vs, None).
  Proof.
    constructor; cbn [fst snd]; auto.
    - intros k R. lia.
    - exists O. split; [reflexivity|]. intros j. split; [intros _ k' j' R; lia|lia].
    - intros d. split; [discriminate|]. intros (k & R & _). lia.
    - intros k a V. assert (E : ((from <=? k) && (k <? from))%nat = false) by (destruct (Nat.leb_spec from k), (Nat.ltb_spec k from); auto; lia). now rewrite E.
  Qed.
End Loop.

(** ** Lowering times that are later than their successors *)
(** [new] is [old] with every time lowered to the earliest of the times behind it (and brought into the 16 bits of a time). *)
Definition Stored (x : Z) : Z := Z.max (-32768) (Z.min 32767 x).
Definition Lowered (old new : list Z) : Prop :=
  length new = length old /\ forall e, (e < length old)%nat ->
    (forall e', (e <= e' < length old)%nat -> nth e new 0 <= Stored (nth e' old 0)) /\
    exists e', (e <= e' < length old)%nat /\ nth e new 0 = Stored (nth e' old 0).
Lemma stored_eq x : clamp16 x = Stored x.
Proof. reflexivity. Qed.
Lemma lowered_sorted old new : Lowered old new -> nondecreasing new.
Proof.
  intros (L & H) a b R. rewrite L in R. destruct (H a) as (A & _); [lia|]. destruct (H b) as (_ & e & E1 & ->); [lia|]. apply A. lia.
Qed.
Section Mono.
  Variables (base : Z) (n : nat) (old : list Z).
  Hypothesis LO : length old = (2 * n - 2)%nat.
  Record Mono (j : nat) (st : list Z * option Z) : Prop := {
    mo_len : length (fst st) = length old;
    mo_old : forall e, (e < j)%nat -> nth e (fst st) 0 = nth e old 0;
    mo_ub : match snd st with
            | Some u => (forall e, (j <= e < length old)%nat -> u <= base + nth e old 0) /\ exists e, (j <= e < length old)%nat /\ u = base + nth e old 0
            | None => (length old <= j)%nat end;
    mo_new : forall e, (j <= e < length old)%nat -> (forall e', (e <= e' < length old)%nat -> nth e (fst st) 0 <= Stored (nth e' old 0)) /\
               exists e', (e <= e' < length old)%nat /\ nth e (fst st) 0 = Stored (nth e' old 0) }.
  Lemma mono_step k a st : (ev_idx k a < length old)%nat -> Mono (S (ev_idx k a)) st -> Mono (ev_idx k a) (mono_ev base st k a).
  Proof.
    intros L [A B C D]. destruct st as [ts ub]. cbn [fst snd] in *. unfold mono_ev. cbn [fst snd]. set (j := ev_idx k a) in *.
    rewrite (B j) by lia. set (t := base + nth j old 0). set (u := match ub with Some u => Z.min t u | None => t end).
    assert (U1 : forall e, (j <= e < length old)%nat -> u <= base + nth e old 0).
    { intros e R. unfold u. destruct (Nat.eq_dec e j) as [->|N]; [fold t; destruct ub; lia|]. destruct ub as [u0|]; [|lia]. destruct C as (C & _). specialize (C e ltac:(lia)). lia. }
    assert (U2 : exists e, (j <= e < length old)%nat /\ u = base + nth e old 0).
    { unfold u. destruct ub as [u0|]; [|exists j; split; [lia|reflexivity]]. destruct C as (_ & e & R & E).
      destruct (Z.leb_spec t u0); [exists j; split; [lia|unfold t in *; lia]|exists e; split; [lia|lia]]. }
    constructor; cbn [fst snd].
    - now rewrite set_nth_length.
    - intros e R. rewrite nth_set_nth_neq by lia. apply B. lia.
    - auto.
    - intros e R. destruct (Nat.eq_dec e j) as [->|N].
      + rewrite nth_set_nth_eq by lia. rewrite stored_eq. split.
        * intros e' R'. specialize (U1 e' ltac:(lia)). unfold Stored. lia.
        * destruct U2 as (e' & R' & E'). exists e'. split; [lia|]. f_equal. lia.
      + rewrite nth_set_nth_neq by lia. apply D. lia.
  Qed.
  Definition mono_start (k : nat) : nat := if Nat.eqb k n then length old else (2 * k - 1)%nat.
  Lemma mono_down_spec : forall k st, (k <= n)%nat -> Mono (mono_start k) st -> Lowered old (mono_down base n k st).
  Proof.
    induction k as [|k IH]; intros st L H; cbn [mono_down].
    - assert (E : mono_start 0 = O \/ length old = O) by (unfold mono_start; destruct (Nat.eqb_spec 0 n); [right; lia|left; lia]).
      destruct H as [A B C D]. split; [exact A|]. intros e R. apply D. destruct E; lia.
    - apply IH; [lia|]. unfold mono_start in H |- *. assert (E : Nat.eqb k n = false) by (apply Nat.eqb_neq; lia). rewrite E.
      assert (H1 : Mono (2 * k) (if Nat.eqb (S k) n then st else mono_ev base st k false)).
      { destruct (Nat.eqb_spec (S k) n) as [X|X]; [rewrite LO in H; replace (2 * n - 2)%nat with (2 * k)%nat in H by lia; exact H|].
        replace (2 * k)%nat with (ev_idx k false) by (unfold ev_idx; lia). apply mono_step; [unfold ev_idx; lia|].
        replace (S (ev_idx k false)) with (2 * S k - 1)%nat by (unfold ev_idx; lia). exact H. }
      destruct (Nat.eqb_spec k 0) as [->|X]; [exact H1|].
      replace (2 * k - 1)%nat with (ev_idx k true) by (unfold ev_idx; lia). apply mono_step; [unfold ev_idx; lia|].
      replace (S (ev_idx k true)) with (2 * k)%nat by (unfold ev_idx; lia). exact H1.
  Qed.
  Lemma mono_lowered : Lowered old (mono_down base n n (old, None)).
  Proof.
    apply mono_down_spec; [lia|]. unfold mono_start. rewrite Nat.eqb_refl. constructor; cbn [fst snd]; auto; intros; lia.
  Qed.
End Mono.

(** ** First and last stop *)
(** Stop [k] of the run [from, to) drops out: nobody may board at the first or alight at the last stop. *)
Definition DropsOut (from to : nat) (ws : list Z) (k : nat) : Prop :=
  (k = from /\ s_in (stop_of_value (nth from ws 0)) = false) \/ (k = (to - 1)%nat /\ s_out (stop_of_value (nth (to - 1) ws 0)) = false).
Lemma cancel_stop_at ws k : (k < length ws)%nat -> stop_of_value (nth k (cancel_stop ws k) 0) = mk_stop (s_loc (stop_of_value (nth k ws 0))) false false false false.
Proof.
  intros L. unfold cancel_stop. rewrite nth_set_nth_eq by exact L.
  assert (B : 0 <= s_loc (stop_of_value (nth k ws 0)) < 268435456) by (unfold stop_of_value; cbn [s_loc]; apply Z.mod_pos_bound; lia).
  unfold word_loc. rewrite Z2Nat.id by lia. now rewrite stop_roundtrip by exact B.
Qed.
Lemma cancel_stop_other ws k k' : k' <> k -> nth k' (cancel_stop ws k) 0 = nth k' ws 0.
Proof. intros N. unfold cancel_stop. apply nth_set_nth_neq. congruence. Qed.
Lemma cancel_stop_len ws k : length (cancel_stop ws k) = length ws.
Proof. apply set_nth_length. Qed.
Lemma first_last_spec ws from to k : (from < to <= length ws)%nat ->
  (DropsOut from to ws k -> stop_of_value (nth k (first_last ws from to) 0) = mk_stop (s_loc (stop_of_value (nth k ws 0))) false false false false) /\
  (~ DropsOut from to ws k -> nth k (first_last ws from to) 0 = nth k ws 0).
Proof.
  intros R. unfold first_last, DropsOut. destruct (s_in (stop_of_value (nth from ws 0))) eqn:E1.
  - destruct (s_out (stop_of_value (nth (to - 1) ws 0))) eqn:E2.
    + split; [intros [(_ & H)|(_ & H)]; congruence|reflexivity].
    + split; [intros [(_ & H)|(-> & _)]; [congruence|]; apply cancel_stop_at; lia|]. intros H. apply cancel_stop_other. intros ->. apply H. right. auto.
  - destruct (Nat.eq_dec from (to - 1)) as [F|F].
    + subst from. rewrite cancel_stop_at by lia. cbn [s_out]. split.
      * intros [(-> & _)|(-> & _)]; (rewrite cancel_stop_at by (rewrite cancel_stop_len; lia)); rewrite cancel_stop_at by lia; reflexivity.
      * intros H. rewrite !cancel_stop_other; auto; intros ->; apply H; left; auto.
    + rewrite (cancel_stop_other ws from (to - 1)) by congruence. destruct (s_out (stop_of_value (nth (to - 1) ws 0))) eqn:E2.
      * split; [intros [(-> & _)|(_ & H)]; [|congruence]; apply cancel_stop_at; lia|]. intros H. apply cancel_stop_other. intros ->. apply H. left. auto.
      * split.
        -- intros [(-> & _)|(-> & _)].
           ++ rewrite cancel_stop_other by congruence. apply cancel_stop_at. lia.
           ++ rewrite cancel_stop_at by (rewrite cancel_stop_len; lia). rewrite cancel_stop_other by congruence. reflexivity.
        -- intros H. assert (N1 : k <> from) by (intros ->; apply H; left; auto). assert (N2 : k <> (to - 1)%nat) by (intros ->; apply H; right; auto).
           now rewrite (cancel_stop_other _ _ k N2), (cancel_stop_other _ _ k N1).
Qed.
Lemma first_last_len ws from to : length (first_last ws from to) = length ws.
Proof. unfold first_last. cbv zeta. destruct (s_in _), (s_out _); rewrite ?cancel_stop_len; reflexivity. Qed.

(** ** Histories of trip updates, alerts and VDV messages *)
Inductive message := Msg_gtfs (e : event) | Msg_vdv (m : vdv_msg).
Definition run_message (tt : stt) (eqv : nat -> nat -> bool) (st : rtt * alerts) (e : message) : rtt * alerts :=
  match e with Msg_gtfs e => run_event tt st e | Msg_vdv m => (apply_vdv tt eqv (fst st) m, snd st) end.
Definition run_messages (tt : stt) (eqv : nat -> nat -> bool) (es : list message) (base : Z) : rtt :=
  fst (fold_left (run_message tt eqv) es (create_rt_timetable tt base, no_alerts)).
Definition honest_message (e : message) : Prop := match e with Msg_gtfs e => honest_event e | Msg_vdv _ => True end.
Record vinv (r : rtt) : Prop := {
  vi_times : length (rt_times r) = length (rt_static r);
  vi_stops : length (rt_stops r) = length (rt_static r);
  vi_canc : length (rt_cancelled r) = length (rt_static r);
  vi_len : forall i, length (nth i (rt_times r) []) = (2 * length (nth i (rt_stops r) []) - 2)%nat;
  vi_sorted : forall i, nth i (rt_cancelled r) false = false -> nondecreasing (nth i (rt_times r) []);
  vi_lookup : forall t i, lookup_find (rt_lookup r) t = Some i <-> nth_error (rt_static r) i = Some (inl t) }.
Lemma create_vinv tt base : vinv (create_rt_timetable tt base).
Proof.
  destruct (create_inv tt base) as [A B C D E]. constructor; auto.
Qed.
(** Cancelling changes the flag of the vehicle only. *)
Lemma cancel_run_flag tt r x j : nth j (rt_cancelled (cancel_run tt r x)) false =
  if match r_rt x with Some i => Nat.eqb i j && Nat.ltb i (length (rt_cancelled r)) | None => false end then true else nth j (rt_cancelled r) false.
Proof.
  unfold cancel_run. destruct (r_rt x) as [i|], (r_t x) as [[ti d]|]; cbn [rt_cancelled disable_day set_cancelled]; try reflexivity;
    rewrite nth_set_nth; reflexivity.
Qed.
Lemma cancel_vinv tt r x : vinv r -> vinv (cancel_run tt r x).
Proof.
  intros [A B C D E F]. destruct (cancel_run_frame tt r x) as (F1 & F2 & F3 & F4 & F5 & F6 & F7).
  constructor; rewrite ?F1, ?F2, ?F4, ?F5, ?cancel_run_len; auto.
  intros i H. apply E. rewrite cancel_run_flag in H. destruct (match r_rt x with Some _ => _ | None => _ end); [discriminate|exact H].
Qed.
Lemma update_run_rt_vinv tt x i lseq r seqs us : r_rt x = Some i ->
  length (rt_times r) = length (rt_static r) -> length (rt_stops r) = length (rt_static r) -> length (rt_cancelled r) = length (rt_static r) ->
  (forall j, length (nth j (rt_times r) []) = (2 * length (nth j (rt_stops r) []) - 2)%nat) ->
  (forall j, j <> i -> nth j (rt_cancelled r) false = false -> nondecreasing (nth j (rt_times r) [])) ->
  (forall t j, lookup_find (rt_lookup r) t = Some j <-> nth_error (rt_static r) j = Some (inl t)) ->
  vinv (update_run_rt tt x i lseq r seqs us).
Proof.
  intros RX A B CC C D E. pose proof (update_run_len tt x i lseq r seqs us) as UL. destruct (update_run_rt_frame tt x i lseq r seqs us) as (F1 & F2 & F3 & F4 & F5 & F6 & F7).
  pose proof (touch_before_cancel tt x i lseq r seqs us) as T. destruct T.
  constructor; rewrite ?F1, ?F2, ?F4, ?F5; auto; try congruence.
  - intros j. destruct (Nat.eq_dec j i) as [->|Hj].
    + rewrite tc_tilen, tc_silen. apply C.
    + rewrite tc_times, tc_stops by auto. apply C.
  - intros j H. destruct (Nat.eq_dec j i) as [->|Hj]; [apply before_cancel_sorted|].
    rewrite tc_times by auto. apply D; [exact Hj|]. rewrite update_run_rt_unfold in H. cbv zeta in H. rewrite <- tc_cancelled.
    destruct (_ <=? 1)%nat; [|exact H]. rewrite cancel_run_flag, RX in H. destruct (Nat.eqb_spec i j); [congruence|exact H].
Qed.
Lemma uncancel_other r i j : j <> i -> nth j (rt_cancelled (set_cancelled r i false)) false = nth j (rt_cancelled r) false.
Proof. intros N. cbn [set_cancelled rt_cancelled]. apply nth_set_nth_neq. congruence. Qed.
(** Adding a vehicle. *)
Lemma add_vinv tt r src t ss ts id : vinv r ->
  let (r', i) := add_rt_transport tt r src t ss ts id in
  length (rt_cancelled r') = length (rt_static r') /\ (forall j, (j < i)%nat -> nth j (rt_cancelled r') false = nth j (rt_cancelled r) false) /\ nth i (rt_cancelled r') false = false.
Proof.
  intros [A B C _ _ _]. unfold add_rt_transport. destruct id as [id|], t as [[ti day]|]; cbn [rt_cancelled rt_static disable_day]; rewrite !app_length; cbn [length];
    (split; [lia|]); (split; [intros j L; now rewrite app_nth1 by lia|rewrite app_nth2 by lia; rewrite C, Nat.sub_diag; reflexivity]).
Qed.
Lemma add_scheduled_vinv tt r src t : forward tt -> vinv r -> resolve_rt r t = None ->
  let (r', i) := add_rt_transport tt r src (Some t) [] [] None in vinv r'.
Proof.
  intros HF HI HN. pose proof (add_vinv tt r src (Some t) [] [] None HI) as V. destruct HI as [A B CC C D E].
  pose proof (add_frame tt r src (Some t) [] [] None A B) as F. pose proof (add_scheduled_len tt r src t A B) as G.
  pose proof (add_lookup_scheduled tt r src t HN E) as H.
  assert (TI : nth (length (rt_static r)) (rt_times (fst (add_rt_transport tt r src (Some t) [] [] None))) [] =
               copy_times (length (s_seq tt (fst t)) - 1) 0 (length (s_seq tt (fst t))) (fun s => rt_unix_to_delta r (s_event tt (fst t) (snd t) s false)) (fun s => rt_unix_to_delta r (s_event tt (fst t) (snd t) s true))).
  { unfold add_rt_transport. destruct t as [ti day]. cbn [fst snd rt_times]. cbn [disable_day rt_times]. rewrite app_nth2 by lia. rewrite A, Nat.sub_diag. reflexivity. }
  destruct (add_rt_transport tt r src (Some t) [] [] None) as [r1 i]. cbn [fst] in TI. destruct F as (F1 & F2 & F3 & F4 & F5 & F6). destruct V as (V1 & V2 & V3).
  constructor; try lia; auto.
  - intros j. destruct (Nat.lt_trichotomy j i) as [Hj|[->|Hj]].
    + destruct (F6 j Hj) as [-> ->]. apply C.
    + exact G.
    + rewrite !nth_overflow by lia. reflexivity.
  - intros j Hc. destruct (Nat.lt_trichotomy j i) as [Hj|[->|Hj]].
    + rewrite V2 in Hc by exact Hj. destruct (F6 j Hj) as [-> _]. now apply D.
    + rewrite F1, TI. now apply scheduled_times_sorted.
    + rewrite nth_overflow by lia. apply nondecreasing_nil.
Qed.
Lemma apply_msg_vinv tt m r : forward tt -> vinv r -> vinv (apply_msg tt r m).
Proof.
  intros HF HI. pose proof HI as HI0. destruct HI as [A B CC C D E]. destruct m as [src t from to seqs us|src lid tid stops us|src t from to]; cbn [apply_msg].
  - unfold resolve_rt_run. cbn [r_t r_from r_to]. destruct (resolve_rt r t) as [i|] eqn:El.
    + unfold update_scheduled. cbn [r_t r_rt]. apply update_run_rt_vinv; cbn [set_cancelled rt_times rt_stops rt_static rt_lookup rt_cancelled]; auto.
      * now rewrite set_nth_length.
      * intros j N H. apply D. rewrite nth_set_nth_neq in H by congruence. exact H.
    + unfold update_scheduled. cbn [r_t r_rt r_from r_to]. pose proof (add_scheduled_vinv tt r src t HF HI0 El) as V.
      destruct (add_rt_transport tt r src (Some t) [] [] None) as [r1 i]. destruct V. apply update_run_rt_vinv; auto.
  - unfold update_added. destruct (r_rt (resolve_rt_run r (mk_run None 0 0 None) lid src)) as [i|] eqn:ER.
    + apply update_run_rt_vinv; cbn [set_cancelled rt_times rt_stops rt_static rt_lookup rt_cancelled]; auto.
      * now rewrite set_nth_length.
      * intros j N H. apply D. rewrite nth_set_nth_neq in H by congruence. exact H.
    + pose proof (add_vinv tt r src None stops (repeat 0 (2 * length stops - 2)) (Some tid) HI0) as V.
      pose proof (add_frame tt r src None stops (repeat 0 (2 * length stops - 2)) (Some tid) A B) as F.
      pose proof (add_new_len tt r src tid stops A B) as G.
      pose proof (add_lookup_new tt r src stops (repeat 0 (2 * length stops - 2)) tid E) as H.
      destruct (add_rt_transport tt r src None stops (repeat 0 (2 * length stops - 2)) (Some tid)) as [r1 i].
      destruct F as (F1 & F2 & F3 & F4 & F5 & F6). destruct G as [G _]. destruct V as (V1 & V2 & V3).
      apply update_run_rt_vinv; auto; try congruence.
      * intros j. destruct (Nat.lt_trichotomy j i) as [Hj|[->|Hj]].
        -- destruct (F6 j Hj) as [-> ->]. apply C.
        -- exact G.
        -- rewrite !nth_overflow by lia. reflexivity.
      * intros j Hj Hc. destruct (Nat.lt_ge_cases j i) as [Hj'|Hj'].
        -- destruct (F6 j Hj') as [-> _]. apply D. now rewrite <- V2.
        -- rewrite nth_overflow by lia. apply nondecreasing_nil.
  - now apply cancel_vinv.
Qed.
Lemma names_vinv tt src : forall es r r' ss, forward tt -> Forall honest es -> vinv r -> NamesAll tt src r es r' ss -> vinv r'.
Proof.
  intros es r r' ss HF HH HI N. revert HH HI. induction N as [r|r e r1 s es r2 ss N1 N2 IH|r e es r2 ss N1 N2 IH]; intros HH HI.
  - exact HI.
  - inversion HH as [|? ? H1 H2]; subst. apply IH; [exact H2|].
    destruct N1 as [f u i x X ET EF EU|f u r' i x X ET EF EU EA| | | | ]; try exact HI.
    specialize (H1 f r u ET EF). destruct (r_t u) as [t|]; [|contradiction]. rewrite EU in H1. symmetry in H1.
    pose proof (add_scheduled_vinv tt r src t HF HI H1) as T. rewrite EA in T. exact T.
  - inversion HH as [|? ? H1 H2]; subst. apply IH; auto.
Qed.
Lemma run_event_vinv tt st e : forward tt -> honest_event e -> vinv (fst st) -> vinv (fst (run_event tt st e)).
Proof.
  intros HF HH HI. destruct e as [m|src al]; cbn [run_event fst]; [now apply apply_msg_vinv|].
  destruct st as [r a]. unfold handle_alert. cbn [fst snd] in *. destruct (resolve_entities tt r src (al_entities al)) as [r1 ss] eqn:E. apply resolve_entities_spec in E.
  pose proof (names_vinv tt src _ _ _ _ HF HH HI E). destruct ss; exact H.
Qed.

(** ** One VDV message for one run *)
(** Vehicle [i] and its times and stops before the message: the real-time twin of the trip on that day, or a new one that runs as
    scheduled. *)
Definition Current (tt : stt) (r : rtt) (t : transport) (i : nat) (ts ws : list Z) : Prop :=
  (resolve_rt r t = Some i /\ ts = nth i (rt_times r) [] /\ ws = nth i (rt_stops r) []) \/
  (resolve_rt r t = None /\ i = length (rt_static r) /\ ws = s_seq tt (fst t) /\
   (forall k, (k + 1 < length ws)%nat -> nth (ev_idx k false) ts 0 = Stored (s_event tt (fst t) (snd t) k false - rt_base r)) /\
   (forall k, (0 < k < length ws)%nat -> nth (ev_idx k true) ts 0 = Stored (s_event tt (fst t) (snd t) k true - rt_base r))).
Definition start_vehicle (tt : stt) (r : rtt) (src : nat) (t : transport) : rtt * nat :=
  match resolve_rt r t with Some i => (set_cancelled r i false, i) | None => add_rt_transport tt r src (Some t) [] [] None end.
Record started (tt : stt) (r : rtt) (t : transport) (r1 : rtt) (i : nat) : Prop := {
  sd_current : Current tt r t i (nth i (rt_times r1) []) (nth i (rt_stops r1) []);
  sd_len : length (nth i (rt_times r1) []) = (2 * length (nth i (rt_stops r1) []) - 2)%nat;
  sd_base : rt_base r1 = rt_base r;
  sd_resolve : resolve_rt r1 t = Some i;
  sd_times : length (rt_times r1) = length (rt_static r1); sd_stops : length (rt_stops r1) = length (rt_static r1); sd_canc : length (rt_cancelled r1) = length (rt_static r1);
  sd_i : (i < length (rt_static r1))%nat;
  sd_c : nth i (rt_cancelled r1) false = false;
  sd_static : forall j, (j < length (rt_static r))%nat -> nth_error (rt_static r1) j = nth_error (rt_static r) j;
  sd_other : forall j, j <> i -> nth j (rt_times r1) [] = nth j (rt_times r) [] /\ nth j (rt_stops r1) [] = nth j (rt_stops r) [] /\ nth j (rt_cancelled r1) false = nth j (rt_cancelled r) false }.
Lemma start_spec tt r src t : vinv r -> started tt r t (fst (start_vehicle tt r src t)) (snd (start_vehicle tt r src t)).
Proof.
  intros HI. unfold start_vehicle. destruct (resolve_rt r t) as [i|] eqn:ER.
  - cbn [fst snd]. assert (IL : (i < length (rt_static r))%nat).
    { unfold resolve_rt in ER. apply (vi_lookup r HI) in ER. apply nth_error_Some. congruence. }
    constructor; cbn [set_cancelled rt_times rt_stops rt_base rt_static rt_cancelled]; try rewrite set_nth_length; try apply HI; auto.
    + left. auto.
    + now apply (vi_lookup r HI).
    + apply nth_set_nth_eq. rewrite (vi_canc r HI). exact IL.
    + intros j N. split; [reflexivity|]. split; [reflexivity|]. apply nth_set_nth_neq. congruence.
  - pose proof (add_vinv tt r src (Some t) [] [] None HI) as V. destruct HI as [A B CC C D E].
    pose proof (add_frame tt r src (Some t) [] [] None A B) as F. pose proof (add_scheduled_len tt r src t A B) as G.
    pose proof (add_lookup_scheduled tt r src t ER E) as H.
    set (n := length (s_seq tt (fst t))).
    set (dep := fun s => rt_unix_to_delta r (s_event tt (fst t) (snd t) s false)). set (arr := fun s => rt_unix_to_delta r (s_event tt (fst t) (snd t) s true)).
    assert (TI : nth (length (rt_static r)) (rt_times (fst (add_rt_transport tt r src (Some t) [] [] None))) [] = copy_times (n - 1) 0 n dep arr).
    { unfold add_rt_transport. destruct t as [ti day]. cbn [fst snd rt_times]. cbn [disable_day rt_times]. rewrite app_nth2 by lia. rewrite A, Nat.sub_diag. reflexivity. }
    assert (SI : nth (length (rt_static r)) (rt_stops (fst (add_rt_transport tt r src (Some t) [] [] None))) [] = s_seq tt (fst t)).
    { unfold add_rt_transport. destruct t as [ti day]. cbn [fst snd rt_stops]. cbn [disable_day rt_stops]. rewrite app_nth2 by lia. rewrite B, Nat.sub_diag. reflexivity. }
    assert (XI : rt_static (fst (add_rt_transport tt r src (Some t) [] [] None)) = rt_static r ++ [inl t]).
    { unfold add_rt_transport. destruct t as [ti day]. reflexivity. }
    destruct (add_rt_transport tt r src (Some t) [] [] None) as [r1 i]. cbn [fst snd] in *. destruct F as (F1 & F2 & F3 & F4 & F5 & F6). destruct V as (V1 & V2 & V3).
    constructor; try lia; auto.
    + right. split; [exact ER|]. split; [exact F1|]. rewrite F1, SI, TI. split; [reflexivity|]. fold n. split.
      * intros k L. destruct (copy_times_nth (n - 1) 0 n dep arr k) as (X & _); [lia|lia|]. unfold ev_idx. replace (k * 2 - 0)%nat with (2 * k)%nat by lia. rewrite X. reflexivity.
      * intros k L. destruct (copy_times_nth (n - 1) 0 n dep arr (k - 1)) as (_ & X); [lia|lia|]. unfold ev_idx. replace (k * 2 - 1)%nat with (2 * (k - 1) + 1)%nat by lia. rewrite X.
        replace (0 + (k - 1) + 1)%nat with k by lia. reflexivity.
    + unfold resolve_rt. apply H. rewrite XI, F1. rewrite nth_error_app2 by lia. now rewrite Nat.sub_diag.
    + intros j L. rewrite XI. now rewrite nth_error_app1.
    + intros j N. destruct (Nat.lt_ge_cases j i) as [L|L].
      * destruct (F6 j L) as (-> & ->). rewrite (V2 j L). auto.
      * rewrite !nth_overflow by lia. auto.
Qed.
(** Somebody may board or alight at the stop. *)
Definition Served (w : Z) : Prop := s_in (stop_of_value w) = true \/ s_out (stop_of_value w) = true.
Lemma two_in_filter {A} (f : A -> bool) (d : A) (l : list A) :
  (2 <= length (filter f l))%nat <-> exists k1 k2, (k1 < k2 < length l)%nat /\ f (nth k1 l d) = true /\ f (nth k2 l d) = true.
Proof.
  assert (ONE : forall l, (1 <= length (filter f l))%nat <-> exists k, (k < length l)%nat /\ f (nth k l d) = true).
  { clear l. induction l as [|x l IH]; cbn [filter length]; [split; [lia|intros (k & L & _); lia]|]. destruct (f x) eqn:E; cbn [length].
    - split; [|lia]. intros _. exists O. split; [lia|exact E].
    - rewrite IH. split; [intros (k & L & H); exists (S k); split; [lia|exact H]|]. intros ([|k] & L & H); [cbn in H; congruence|]. exists k. split; [lia|exact H]. }
  induction l as [|x l IH]; cbn [filter length]; [split; [lia|intros (k & k2 & L & _); lia]|]. destruct (f x) eqn:E; cbn [length].
  - split.
    + intros L. assert (L1 : (1 <= length (filter f l))%nat) by lia. apply ONE in L1. destruct L1 as (k & K & H). exists O, (S k). split; [lia|]. auto.
    + intros (k1 & k2 & L & H1 & H2). assert (L1 : (1 <= length (filter f l))%nat); [|lia]. apply ONE. destruct k2 as [|k2]; [lia|]. exists k2. split; [lia|exact H2].
  - rewrite IH. split.
    + intros (k1 & k2 & L & H1 & H2). exists (S k1), (S k2). split; [lia|]. auto.
    + intros (k1 & k2 & L & H1 & H2). destruct k1 as [|k1]; [cbn in H1; congruence|]. destruct k2 as [|k2]; [lia|]. exists k1, k2. split; [lia|]. auto.
Qed.
Lemma n_active_spec ws : (n_active_stops ws <=? 1)%nat = true <-> ~ exists k1 k2, (k1 < k2 < length ws)%nat /\ Served (nth k1 ws 0) /\ Served (nth k2 ws 0).
Proof.
  rewrite Nat.leb_le. unfold n_active_stops.
  assert (S1 : forall w, negb (stop_is_cancelled (stop_of_value w)) = true <-> Served w).
  { intros w. unfold stop_is_cancelled, Served. destruct (s_in _), (s_out _); cbn; intuition discriminate. }
  pose proof (two_in_filter (fun w => negb (stop_is_cancelled (stop_of_value w))) 0 ws) as T. split.
  - intros L (k1 & k2 & R & H1 & H2). assert (2 <= length (filter (fun w => negb (stop_is_cancelled (stop_of_value w))) ws))%nat; [|lia].
    apply T. exists k1, k2. split; [exact R|]. split; now apply S1.
  - intros H. destruct (Nat.le_gt_cases (length (filter (fun w => negb (stop_is_cancelled (stop_of_value w))) ws)) 1) as [L|L]; [exact L|]. exfalso. apply H.
    assert (L2 : (2 <= length (filter (fun w => negb (stop_is_cancelled (stop_of_value w))) ws))%nat) by lia. apply T in L2. destruct L2 as (k1 & k2 & R & H1 & H2). exists k1, k2. split; [exact R|]. split; now apply S1.
Qed.

(** The effect of a message with stops [vs] on stops [from, to) of vehicle [t]. *)
Definition Updated (tt : stt) (same_place : nat -> nat -> bool) (r : rtt) (t : transport) (from to : nat) (vs : list vstop) (r' : rtt) (i : nat) (ts ws : list Z) : Prop :=
  let sched := s_event tt (fst t) (snd t) in
  exists m said ws1,
    Greedy same_place sched (fun k => Z.to_nat (s_loc (stop_of_value (nth k ws 0)))) from to vs m to /\ (forall k, (to <= k)%nat -> m k = None) /\
    (* times as the message says *)
    length said = length ts /\
    (forall k a, (a = true -> (0 < k)%nat) ->
       ((from <= k < to)%nat -> exists o, Says sched from to vs m k a o /\
          nth (ev_idx k a) said 0 = match o with Some x => Stored (x - rt_base r) | None => nth (ev_idx k a) ts 0 end) /\
       (~ (from <= k < to)%nat -> nth (ev_idx k a) said 0 = nth (ev_idx k a) ts 0)) /\
    (* stops as the message says; first and last stop may drop out *)
    length ws1 = length ws /\
    (forall k, match m k with
       | Some j => exists v, nth_error vs j = Some v /\ stop_of_value (nth k ws1 0) = StopAs (stop_of_value (nth k (s_seq tt (fst t)) 0)) (stop_of_value (nth k ws 0)) v
       | None => nth k ws1 0 = nth k ws 0 end) /\
    let ws' := nth i (rt_stops r') [] in
    length ws' = length ws /\
    (forall k, (DropsOut from to ws1 k -> stop_of_value (nth k ws' 0) = mk_stop (s_loc (stop_of_value (nth k ws1 0))) false false false false) /\
               (~ DropsOut from to ws1 k -> nth k ws' 0 = nth k ws1 0)) /\
    (* cancelled if nobody can ride any more *)
    (nth i (rt_cancelled r') false = true <-> ~ exists k1 k2, (k1 < k2 < length ws')%nat /\ Served (nth k1 ws' 0) /\ Served (nth k2 ws' 0)) /\
    (nth i (rt_cancelled r') false = true -> nth i (rt_times r') [] = said) /\
    (nth i (rt_cancelled r') false = false -> Lowered said (nth i (rt_times r') [])).
Lemma vdv_update_run_spec tt eqv r src t from to vs : let r1 := fst (start_vehicle tt r src t) in let i := snd (start_vehicle tt r src t) in
  vinv r -> (from < to <= length (nth i (rt_stops r1) []))%nat ->
  let r' := vdv_update_run tt eqv r src t from to vs in
  Updated tt eqv r t from to vs r' i (nth i (rt_times r1) []) (nth i (rt_stops r1) []) /\
  rt_base r' = rt_base r /\ rt_lookup r' = rt_lookup r1 /\ rt_static r' = rt_static r1 /\
  length (rt_times r') = length (rt_times r1) /\ length (rt_stops r') = length (rt_stops r1) /\ length (rt_cancelled r') = length (rt_cancelled r1) /\
  forall j, j <> i -> nth j (rt_times r') [] = nth j (rt_times r) [] /\ nth j (rt_stops r') [] = nth j (rt_stops r) [] /\ nth j (rt_cancelled r') false = nth j (rt_cancelled r) false.
Proof.
  cbv zeta. intros HI R. pose proof (start_spec tt r src t HI) as SD. unfold vdv_update_run. fold (start_vehicle tt r src t) in *.
  destruct (start_vehicle tt r src t) as [r1 i] eqn:ES. cbn [fst snd] in *. destruct SD as [SC SL SB SR ST SS SN SI S0 SX SO].
  set (ts0 := nth i (rt_times r1) []) in *. set (ws0 := nth i (rt_stops r1) []) in *. set (N := length ws0) in *.
  destruct (inv_loop tt eqv (fst t) (snd t) from to (rt_base r1) vs ts0 ws0 N SL eq_refl ltac:(lia) (to - from) from (fun _ => None) (ts0, ws0, vs, None) ltac:(lia) ltac:(lia)
              (inv_init tt eqv (fst t) (snd t) from to (rt_base r1) vs ts0 ws0 N SL eq_refl ltac:(lia))) as (m & INV).
  replace (from + (to - from))%nat with to in INV by lia.
  destruct (fold_left (vdv_step tt eqv (fst t) (snd t) to (rt_base r1)) (seq from (to - from)) (ts0, ws0, vs, None)) as [[[ts1 ws1] vs1] d1].
  destruct INV as [IG IN _ _ IT IW ITM IWD]. cbn [fst snd] in IT, IW, ITM, IWD.
  set (ws' := first_last ws1 from to).
  assert (WL : length ws' = N) by (unfold ws'; rewrite first_last_len; exact IW).
  set (r2 := set_stops (set_times r1 i ts1) i ws').
  assert (T2 : nth i (rt_times r2) [] = ts1) by (unfold r2; cbn [set_stops set_times rt_times]; apply nth_set_nth_eq; lia).
  assert (W2 : nth i (rt_stops r2) [] = ws') by (unfold r2; cbn [set_stops set_times rt_stops]; apply nth_set_nth_eq; lia).
  assert (C2 : rt_cancelled r2 = rt_cancelled r1) by reflexivity.
  set (r3 := if (n_active_stops ws' <=? 1)%nat then cancel_run tt r2 {| r_t := Some t; r_from := from; r_to := to; r_rt := Some i |} else r2).
  assert (F3 : rt_times r3 = rt_times r2 /\ rt_stops r3 = rt_stops r2 /\ rt_base r3 = rt_base r2 /\ rt_lookup r3 = rt_lookup r2 /\ rt_static r3 = rt_static r2 /\ length (rt_cancelled r3) = length (rt_cancelled r2)).
  { unfold r3. destruct (_ <=? 1)%nat; [|auto 10]. destruct (cancel_run_frame tt r2 {| r_t := Some t; r_from := from; r_to := to; r_rt := Some i |}) as (X1 & X2 & X3 & X4 & X5 & _).
    rewrite cancel_run_len. auto 10. }
  destruct F3 as (X1 & X2 & X3 & X4 & X5 & X6).
  assert (C3 : forall j, nth j (rt_cancelled r3) false = if Nat.eqb j i then (n_active_stops ws' <=? 1)%nat else nth j (rt_cancelled r1) false).
  { intros j. unfold r3. destruct (n_active_stops ws' <=? 1)%nat.
    - rewrite cancel_run_flag. cbn [r_rt]. rewrite C2. rewrite SN. rewrite Nat.eqb_sym. destruct (Nat.eqb_spec j i) as [->|]; [|reflexivity].
      replace (i <? length (rt_static r1))%nat with true by (symmetry; apply Nat.ltb_lt; lia). reflexivity.
    - rewrite C2. destruct (Nat.eqb_spec j i) as [->|]; [exact S0|reflexivity]. }
  assert (B3 : rt_base r3 = rt_base r) by (rewrite X3; exact SB).
  assert (TS : forall k a, (a = true -> (0 < k)%nat) -> valid k a) by (intros k [|] H; cbn; auto).
  assert (FIN : forall r', (r' = r3 \/ r' = set_times r3 i (mono_down (rt_base r3) (length ws') (length ws') (nth i (rt_times r3) [], None))) ->
     rt_base r' = rt_base r /\ rt_lookup r' = rt_lookup r1 /\ rt_static r' = rt_static r1 /\ rt_cancelled r' = rt_cancelled r3 /\ nth i (rt_stops r') [] = ws' /\
     length (rt_times r') = length (rt_times r1) /\ length (rt_stops r') = length (rt_stops r1) /\ length (rt_cancelled r') = length (rt_cancelled r1) /\
     forall j, j <> i -> nth j (rt_times r') [] = nth j (rt_times r) [] /\ nth j (rt_stops r') [] = nth j (rt_stops r) [] /\ nth j (rt_cancelled r') false = nth j (rt_cancelled r) false).
  { assert (O3 : forall j, j <> i -> nth j (rt_times r3) [] = nth j (rt_times r) [] /\ nth j (rt_stops r3) [] = nth j (rt_stops r) [] /\ nth j (rt_cancelled r3) false = nth j (rt_cancelled r) false).
    { intros j NE. destruct (SO j NE) as (O1 & O2 & O4). rewrite X1, X2, C3. destruct (Nat.eqb_spec j i); [contradiction|]. unfold r2. cbn [set_stops set_times rt_times rt_stops].
      rewrite !nth_set_nth_neq by congruence. auto. }
    assert (L3 : length (rt_times r3) = length (rt_times r1) /\ length (rt_stops r3) = length (rt_stops r1)).
    { rewrite X1, X2. unfold r2. cbn [set_stops set_times rt_times rt_stops]. rewrite !set_nth_length. auto. }
    destruct L3 as (L3 & L4).
    intros r' [-> | ->].
    - rewrite X2, W2. split; [exact B3|]. split; [exact X4|]. split; [exact X5|]. split; [reflexivity|]. split; [reflexivity|]. split; [exact L3|]. split; [rewrite <- X2; exact L4|]. split; [exact X6|].
      intros j NE. rewrite <- X2. apply O3. exact NE.
    - cbn [set_times rt_base rt_lookup rt_static rt_cancelled rt_stops rt_times]. rewrite X2, W2. split; [exact B3|]. split; [exact X4|]. split; [exact X5|]. split; [reflexivity|]. split; [reflexivity|].
      split; [rewrite set_nth_length; exact L3|]. split; [rewrite <- X2; exact L4|]. split; [exact X6|].
      intros j NE. destruct (O3 j NE) as (O1 & O2 & O4). rewrite nth_set_nth_neq by congruence. rewrite <- X2. auto. }
  assert (CI : nth i (rt_cancelled r3) false = (n_active_stops ws' <=? 1)%nat) by (rewrite C3; now rewrite Nat.eqb_refl).
  set (r' := if nth i (rt_cancelled r3) false then r3 else set_times r3 i (mono_down (rt_base r3) (length ws') (length ws') (nth i (rt_times r3) [], None))).
  destruct (FIN r') as (G1 & G2 & G3 & G4 & G5 & G6 & G7 & G8 & G9); [unfold r'; destruct (nth i (rt_cancelled r3) false); auto|].
  split; [|auto 10]. exists m, ts1, ws1. cbv zeta. rewrite G5. split; [exact IG|]. split; [exact IN|]. split; [exact IT|]. split.
  { intros k a V. specialize (ITM k a (TS k a V)). rewrite SB in ITM. split; intros H.
    - assert (E : ((from <=? k) && (k <? to))%nat = true) by (apply andb_true_iff; split; [apply Nat.leb_le; lia|apply Nat.ltb_lt; lia]). rewrite E in ITM. exact ITM.
    - assert (E : ((from <=? k) && (k <? to))%nat = false) by (destruct (Nat.leb_spec from k), (Nat.ltb_spec k to); auto; lia). rewrite E in ITM. exact ITM. }
  split; [exact IW|]. split; [exact IWD|]. split; [exact WL|]. split; [intros k; apply first_last_spec; rewrite IW; fold N; lia|].
  rewrite G4, CI. split; [apply n_active_spec|]. split.
  - intros H. unfold r'. rewrite CI, H, X1. exact T2.
  - intros H. unfold r'. rewrite CI, H. cbn [set_times rt_times]. rewrite nth_set_nth_eq by (rewrite X1; unfold r2; cbn [set_stops set_times rt_times]; rewrite set_nth_length; lia).
    rewrite X1, T2. apply mono_lowered. rewrite WL, IT. exact SL.
Qed.

(** ** VDV messages keep the invariant *)
Lemma step_lens tt eqv ti day to base st k : length (fst (fst (fst (vdv_step tt eqv ti day to base st k)))) = length (fst (fst (fst st))) /\
  length (snd (fst (fst (vdv_step tt eqv ti day to base st k)))) = length (snd (fst (fst st))).
Proof.
  destruct st as [[[ts ws] l] delay]. unfold vdv_step, update_ev, put.
  destruct (find_match tt eqv ti day to (nth k ws 0) k l) as [[v rest]|].
  - destruct (fits_arr tt ti day k v), (fits_dep tt ti day to k v), (v_rt_arr v), (v_rt_dep v), delay, (Nat.eqb k 0), (Nat.eqb (S k) to); cbn; rewrite ?set_nth_length; auto.
  - destruct delay, (Nat.eqb k 0), (Nat.eqb (S k) to); cbn; rewrite ?set_nth_length; auto.
Qed.
Lemma loop_lens tt eqv ti day to base : forall ks st, length (fst (fst (fst (fold_left (vdv_step tt eqv ti day to base) ks st)))) = length (fst (fst (fst st))) /\
  length (snd (fst (fst (fold_left (vdv_step tt eqv ti day to base) ks st)))) = length (snd (fst (fst st))).
Proof.
  induction ks as [|k ks IH]; intros st; cbn [fold_left]; [auto|]. destruct (IH (vdv_step tt eqv ti day to base st k)) as (A & B). destruct (step_lens tt eqv ti day to base st k). split; congruence.
Qed.
Lemma vdv_update_run_vinv tt eqv r src t from to vs : forward tt -> vinv r -> vinv (vdv_update_run tt eqv r src t from to vs).
Proof.
  intros HF HI. pose proof (start_spec tt r src t HI) as SD.
  assert (LU : forall u j, lookup_find (rt_lookup (fst (start_vehicle tt r src t))) u = Some j <-> nth_error (rt_static (fst (start_vehicle tt r src t))) j = Some (inl u)).
  { unfold start_vehicle. destruct (resolve_rt r t) as [i|] eqn:ER; [apply (vi_lookup r HI)|].
    pose proof (add_scheduled_vinv tt r src t HF HI ER) as V. destruct (add_rt_transport tt r src (Some t) [] [] None). apply (vi_lookup _ V). }
  assert (SO : forall j, j <> snd (start_vehicle tt r src t) -> nth j (rt_cancelled (fst (start_vehicle tt r src t))) false = false -> nondecreasing (nth j (rt_times (fst (start_vehicle tt r src t))) [])).
  { intros j N H. destruct (sd_other _ _ _ _ _ SD j N) as (O1 & _ & O3). rewrite O1. apply (vi_sorted r HI). congruence. }
  assert (SL : forall j, length (nth j (rt_times (fst (start_vehicle tt r src t))) []) = (2 * length (nth j (rt_stops (fst (start_vehicle tt r src t))) []) - 2)%nat).
  { intros j. destruct (Nat.eq_dec j (snd (start_vehicle tt r src t))) as [->|N]; [apply (sd_len _ _ _ _ _ SD)|].
    destruct (sd_other _ _ _ _ _ SD j N) as (O1 & O2 & _). rewrite O1, O2. apply (vi_len r HI). }
  unfold vdv_update_run. fold (start_vehicle tt r src t) in *. destruct (start_vehicle tt r src t) as [r1 i]. cbn [fst snd] in *. destruct SD as [_ _ _ _ ST SS SN SI S0 _ _].
  destruct (loop_lens tt eqv (fst t) (snd t) to (rt_base r1) (seq from (to - from)) (nth i (rt_times r1) [], nth i (rt_stops r1) [], vs, None)) as (LT & LW).
  destruct (fold_left _ _ _) as [[[ts1 ws1] vs1] d1]. cbn [fst snd] in LT, LW. set (ws' := first_last ws1 from to).
  assert (WL : length ws' = length (nth i (rt_stops r1) [])) by (unfold ws'; rewrite first_last_len; exact LW).
  set (r2 := set_stops (set_times r1 i ts1) i ws'). set (x := {| r_t := Some t; r_from := from; r_to := to; r_rt := Some i |}).
  set (r3 := if (n_active_stops ws' <=? 1)%nat then cancel_run tt r2 x else r2).
  assert (T2 : nth i (rt_times r2) [] = ts1) by (unfold r2; cbn [set_stops set_times rt_times]; apply nth_set_nth_eq; lia).
  assert (W2 : nth i (rt_stops r2) [] = ws') by (unfold r2; cbn [set_stops set_times rt_stops]; apply nth_set_nth_eq; lia).
  assert (F3 : rt_times r3 = rt_times r2 /\ rt_stops r3 = rt_stops r2 /\ rt_lookup r3 = rt_lookup r2 /\ rt_static r3 = rt_static r2 /\ length (rt_cancelled r3) = length (rt_cancelled r2) /\
               forall j, j <> i -> nth j (rt_cancelled r3) false = nth j (rt_cancelled r1) false).
  { unfold r3. destruct (_ <=? 1)%nat; [|auto 10]. destruct (cancel_run_frame tt r2 x) as (X1 & X2 & X3 & X4 & X5 & _).
    rewrite cancel_run_len. do 5 (split; [assumption || reflexivity|]). intros j N. rewrite cancel_run_flag. cbn [r_rt x]. destruct (Nat.eqb_spec i j); [congruence|]. reflexivity. }
  destruct F3 as (X1 & X2 & X4 & X5 & X6 & X7).
  assert (OT : forall j, j <> i -> nth j (rt_times r2) [] = nth j (rt_times r1) [] /\ nth j (rt_stops r2) [] = nth j (rt_stops r1) []).
  { intros j N. unfold r2. cbn [set_stops set_times rt_times rt_stops]. rewrite !nth_set_nth_neq by congruence. auto. }
  assert (L2 : length (rt_times r2) = length (rt_static r1) /\ length (rt_stops r2) = length (rt_static r1)) by (unfold r2; cbn [set_stops set_times rt_times rt_stops]; rewrite !set_nth_length; auto).
  destruct L2 as (L2 & L2').
  destruct (nth i (rt_cancelled r3) false) eqn:EC.
  - constructor; rewrite ?X1, ?X2, ?X4, ?X5; auto; try (rewrite X6; exact SN).
    + intros j. destruct (Nat.eq_dec j i) as [->|N]; [rewrite T2, W2, LT, WL; apply SL|]. destruct (OT j N) as (-> & ->). apply SL.
    + intros j H. destruct (Nat.eq_dec j i) as [->|N]; [congruence|]. destruct (OT j N) as (-> & _). apply SO; [exact N|]. now rewrite <- X7.
  - assert (LM : Lowered (nth i (rt_times r3) []) (mono_down (rt_base r3) (length ws') (length ws') (nth i (rt_times r3) [], None))).
    { apply mono_lowered. rewrite X1, T2, LT, WL. apply SL. }
    set (ts2 := mono_down (rt_base r3) (length ws') (length ws') (nth i (rt_times r3) [], None)) in *.
    assert (T3 : nth i (rt_times (set_times r3 i ts2)) [] = ts2) by (cbn [set_times rt_times]; apply nth_set_nth_eq; rewrite X1; lia).
    assert (O3 : forall j, j <> i -> nth j (rt_times (set_times r3 i ts2)) [] = nth j (rt_times r1) []).
    { intros j N. cbn [set_times rt_times]. rewrite nth_set_nth_neq by congruence. rewrite X1. apply OT. exact N. }
    constructor; cbn [set_times rt_times rt_static rt_stops rt_cancelled rt_lookup]; rewrite ?X2, ?X4, ?X5; auto; try (rewrite X6; exact SN).
    + rewrite set_nth_length, X1. exact L2.
    + intros j. destruct (Nat.eq_dec j i) as [->|N].
      * change (set_nth (rt_times r3) i ts2) with (rt_times (set_times r3 i ts2)). rewrite T3, W2. destruct LM as (LM & _). rewrite LM, X1, T2, LT, WL. apply SL.
      * change (set_nth (rt_times r3) i ts2) with (rt_times (set_times r3 i ts2)). rewrite O3 by exact N. destruct (OT j N) as (_ & ->). apply SL.
    + intros j H. change (set_nth (rt_times r3) i ts2) with (rt_times (set_times r3 i ts2)). destruct (Nat.eq_dec j i) as [->|N].
      * rewrite T3. eapply lowered_sorted. exact LM.
      * rewrite O3 by exact N. apply SO; [exact N|]. now rewrite <- X7.
Qed.
Lemma apply_vdv_vinv tt eqv m r : forward tt -> vinv r -> vinv (apply_vdv tt eqv r m).
Proof.
  intros HF. unfold apply_vdv. revert r. induction (vm_runs m) as [|[[t from] to] l IH]; intros r HI; cbn [fold_left]; [exact HI|].
  apply IH. unfold apply_vdv_run. destruct (vm_cancelled m); [now apply cancel_vinv|now apply vdv_update_run_vinv].
Qed.
Lemma run_messages_vinv tt eqv base es : forward tt -> Forall honest_message es -> vinv (run_messages tt eqv es base).
Proof.
  intros HF HH. unfold run_messages. assert (X : vinv (fst (create_rt_timetable tt base, no_alerts))) by apply create_vinv.
  revert X. generalize (create_rt_timetable tt base, no_alerts). induction es as [|e es IH]; intros st X; cbn [fold_left]; [exact X|].
  inversion HH as [|? ? H1 H2]; subst. apply IH; [exact H2|]. destruct e as [e|m]; cbn [run_message]; [now apply run_event_vinv|]. cbn [fst]. now apply apply_vdv_vinv.
Qed.

(** * C72 *)
(** After any history of trip updates, alerts and VDV messages: what one more message does to one vehicle, and that it changes no
    other. *)
Theorem C72_update :
  forall (tt : stt) (same_place : nat -> nat -> bool) (base : Z) (es : list message) (src : nat) (t : transport) (from to : nat) (vs : list vstop),
  forward tt -> Forall honest_message es ->
  let r := run_messages tt same_place es base in
  let r' := apply_vdv tt same_place r {| vm_src := src; vm_runs := [(t, from, to)]; vm_cancelled := false; vm_stops := vs |} in
  exists i ts ws, Current tt r t i ts ws /\
    ((from < to <= length ws)%nat ->
     Updated tt same_place r t from to vs r' i ts ws /\ resolve_rt r' t = Some i /\ rt_base r' = rt_base r /\
     (forall j, (j < length (rt_static r))%nat -> nth_error (rt_static r') j = nth_error (rt_static r) j) /\
     (forall j, j <> i -> nth j (rt_times r') [] = nth j (rt_times r) [] /\ nth j (rt_stops r') [] = nth j (rt_stops r) [] /\ nth j (rt_cancelled r') false = nth j (rt_cancelled r) false)).
Proof.
  intros tt same_place base es src t from to vs HF HH. cbv zeta. pose proof (run_messages_vinv tt same_place base es HF HH) as HI. set (r := run_messages _ _ _ _) in *.
  unfold apply_vdv. cbn [vm_runs fold_left apply_vdv_run vm_cancelled vm_src vm_stops].
  pose proof (start_spec tt r src t HI) as SD. pose proof (vdv_update_run_spec tt same_place r src t from to vs) as U. cbv zeta in U.
  exists (snd (start_vehicle tt r src t)), (nth (snd (start_vehicle tt r src t)) (rt_times (fst (start_vehicle tt r src t))) []), (nth (snd (start_vehicle tt r src t)) (rt_stops (fst (start_vehicle tt r src t))) []).
  split; [apply SD|]. intros R. destruct (U HI R) as (U1 & U2 & U3 & U4 & _ & _ & _ & U5). split; [exact U1|]. split; [unfold resolve_rt; rewrite U3; apply SD|]. split; [exact U2|].
  split; [intros j L; rewrite U4; now apply SD|exact U5].
Qed.
(** After any such history: every vehicle that is not cancelled runs forward in time. *)
Theorem C72_forward_in_time :
  forall (tt : stt) (same_place : nat -> nat -> bool) (base : Z) (es : list message) (i k : nat),
  forward tt -> Forall honest_message es ->
  let r := run_messages tt same_place es base in
  let n := length (nth i (rt_stops r) []) in
  nth i (rt_cancelled r) false = false ->
  ((k + 1 < n)%nat -> unix_event_time r i k false <= unix_event_time r i (k + 1) true) /\
  ((0 < k)%nat -> (k + 1 < n)%nat -> unix_event_time r i k true <= unix_event_time r i k false).
Proof.
  intros tt same_place base es i k HF HH r n HC. pose proof (run_messages_vinv tt same_place base es HF HH) as HI. fold r in HI.
  pose proof (vi_len r HI i) as C. pose proof (vi_sorted r HI i HC) as D. fold n in C. unfold unix_event_time, Rt_Model.event_time, ev_idx. split.
  - intros Hk. apply Z.add_le_mono_l. apply D. lia.
  - intros H0 Hk. apply Z.add_le_mono_l. apply D. lia.
Qed.

(** * Examples and refutations *)
Definition vs0 (l : nat) (dep arr rdep rarr : option Z) : vstop :=
  {| v_loc := Some l; v_dep := dep; v_arr := arr; v_rt_dep := rdep; v_rt_arr := rarr; v_no_in := false; v_no_out := false; v_pass := false; v_arr_c := false; v_dep_c := false |}.
Definition vdv_delay : vdv_msg :=
  {| vm_src := 0; vm_runs := [((0%nat, 3), 0%nat, 3%nat)]; vm_cancelled := false;
     vm_stops := [vs0 0 (Some 104420) None (Some 104425) None; vs0 2 None (Some 104440) None (Some 104442)] |}.
Definition vdv_cancel : vdv_msg := {| vm_src := 0; vm_runs := [((0%nat, 3), 0%nat, 3%nat)]; vm_cancelled := true; vm_stops := [vs0 0 (Some 104420) None None None] |}.
(** No boarding at the first stop of a trip that continues another one: stops 1 and 2 of the vehicle. *)
Definition vdv_continue : vdv_msg :=
  {| vm_src := 0; vm_runs := [((0%nat, 3), 1%nat, 3%nat)]; vm_cancelled := false;
     vm_stops := [{| v_loc := Some 1%nat; v_dep := Some 104430; v_arr := Some 104430; v_rt_dep := Some 104431; v_rt_arr := Some 104431; v_no_in := true; v_no_out := false;
                     v_pass := false; v_arr_c := false; v_dep_c := false |}; vs0 2 None (Some 104440) None (Some 104441)] |}.
Lemma ex_forward : forward ex_stt.
Proof. intros ti day k. cbn [ex_stt s_event]. split; intros; lia. Qed.
Example C72_example :
  rt_times (run_messages ex_stt Nat.eqb [Msg_vdv vdv_delay] 100000) = [[4425; 4435; 4435; 4442]] /\
  rt_times (run_messages ex_stt Nat.eqb [Msg_gtfs (Ev_msg (hd (M_cancel 0 (0%nat, 3) 0 3) ex_history)); Msg_vdv vdv_delay] 100000) = [[4425; 4435; 4435; 4442]] /\
  rt_cancelled (run_messages ex_stt Nat.eqb [Msg_vdv vdv_delay] 100000) = [false].
Proof. vm_compute. auto. Qed.
(** A cancellation does not reach a vehicle that an earlier message has delayed: it still runs. *)
Theorem C72_cancellation_after_delay_refuted :
  ~ (forall (tt : stt) (same_place : nat -> nat -> bool) (base : Z) (es : list message) (m : vdv_msg) (t : transport) (from to i : nat),
     forward tt -> Forall honest_message es -> vm_runs m = [(t, from, to)] -> vm_cancelled m = true ->
     let r' := apply_vdv tt same_place (run_messages tt same_place es base) m in
     resolve_rt r' t = Some i -> nth i (rt_cancelled r') false = true).
Proof.
  intros H. specialize (H ex_stt Nat.eqb 100000 [Msg_vdv vdv_delay] vdv_cancel (0%nat, 3) 0%nat 3%nat 0%nat ex_forward). cbv zeta in H.
  assert (X : false = true); [|discriminate]. refine (H _ eq_refl eq_refl _); [repeat constructor|vm_compute; reflexivity].
Qed.
(** A stop at which passengers may alight according to the message is cancelled because nobody may board there, in the middle of
    the vehicle's way. *)
Theorem C72_alighting_only_refuted :
  ~ (forall (tt : stt) (same_place : nat -> nat -> bool) (base : Z) (es : list message) (m : vdv_msg) (t : transport) (from to i k : nat),
     forward tt -> Forall honest_message es -> vm_runs m = [(t, from, to)] -> vm_cancelled m = false -> (0 < k)%nat -> Forall (fun v => CanAlight v = true) (vm_stops m) ->
     let r := run_messages tt same_place es base in
     let r' := apply_vdv tt same_place r m in
     resolve_rt r t = Some i -> resolve_rt r' t = Some i -> s_out (stop_of_value (nth k (nth i (rt_stops r) []) 0)) = true ->
     s_out (stop_of_value (nth k (nth i (rt_stops r') []) 0)) = true).
Proof.
  intros H. specialize (H ex_stt Nat.eqb 100000 [Msg_vdv vdv_delay] vdv_continue (0%nat, 3) 1%nat 3%nat 0%nat 1%nat ex_forward). cbv zeta in H.
  assert (X : false = true); [|discriminate].
  refine (H _ eq_refl eq_refl _ _ _ _ _); [repeat constructor|lia|repeat constructor|vm_compute; reflexivity|vm_compute; reflexivity|vm_compute; reflexivity].
Qed.
