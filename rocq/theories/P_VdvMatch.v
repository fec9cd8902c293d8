(** C73: which vehicles a VDV / SIRI run is matched to. *)
From Coq Require Import List ZArith Lia Bool Arith Sorted Permutation.
From Verif Require Import Base Time_Model Time_Proofs Rt_Model Rt_Proofs Vdv_Model VdvMatch_Model.
Import ListNotations.
Local Open Scope Z_scope.

(** * Specification *)
Section Spec.
  Variable q : vtt.
  Variable route_of : nat -> nat.
  (** Vehicle [t] on day [d] takes place at time [x] (minutes since the first day) with its event [a] (arrival?) at stop [k]. *)
  Definition TakesPlace (t : transport) (k : nat) (a : bool) (x : Z) : Prop :=
    let r := route_of (fst t) in
    (q_first q r <= fst t)%nat /\ exists e, nth_error (q_ev q r k a) (fst t - q_first q r) = Some e /\ x = snd t * 1440 + e.
  (** The planned time that counts for stop [k] of [len] stops: departure at the first stop, arrival at the last one, otherwise
      the departure if the message has one, else the arrival. *)
  Inductive Planned (v : vstop) (k len : nat) : Z -> bool -> Prop :=
  | Pl_first x : k = O -> v_dep v = Some x -> Planned v k len x false
  | Pl_last x : k <> O -> S k = len -> v_arr v = Some x -> Planned v k len x true
  | Pl_dep x : k <> O -> S k <> len -> v_dep v = Some x -> Planned v k len x false
  | Pl_arr x : k <> O -> S k <> len -> v_dep v = None -> v_arr v = Some x -> Planned v k len x true.
  (** Message stop [v] fits stop [k] of vehicle [t] that runs on that day: equivalent places, planned times at most 15 minutes
      apart; score 230 for the same minute, less by the square of the difference. *)
  Definition FitsStop (v : vstop) (t : transport) (k : nat) (s : Z) : Prop :=
    let locs := q_locs q (route_of (fst t)) in
    q_active q (fst t) (snd t) = true /\
    (exists l0 l, v_loc v = Some l0 /\ In l (q_equiv q l0) /\ nth_error locs k = Some l) /\
    exists pl a x, Planned v k (length locs) pl a /\ TakesPlace t k a x /\ Z.abs (pl - x) <= 15 /\ s = 230 - (pl - x) * (pl - x).
  (** The run begins at a stop where the first message stop that fits the vehicle at all fits it. *)
  Definition Begins (vs : list vstop) (t : transport) (from : nat) : Prop :=
    exists pre v post, vs = pre ++ v :: post /\ (forall u, In u pre -> forall k s, ~ FitsStop u t k s) /\ exists s, FitsStop v t from s.
  (** Points for one message stop: the best fit not before the begin of the run. *)
  Definition Points (v : vstop) (t : transport) (from : nat) (s : Z) : Prop :=
    ((exists k, (from <= k)%nat /\ FitsStop v t k s) /\ forall k s', (from <= k)%nat -> FitsStop v t k s' -> s' <= s) \/
    (s = 0 /\ forall k s', (from <= k)%nat -> ~ FitsStop v t k s').
  Definition Sum (l : list Z) : Z := fold_right Z.add 0 l.
  Definition Score (vs : list vstop) (t : transport) (from : nat) (sc : Z) : Prop := exists ss, Forall2 (fun v s => Points v t from s) vs ss /\ sc = Sum ss.
  (** Timetables: the stops of a route are registered, positions identify vehicles, event times are within 32 days (5 bits),
      traffic days within 512. *)
  Record Wf : Prop := {
    wf_routes : forall l r, In r (q_routes q l) <-> In l (q_locs q r);
    wf_pos : forall r k a p e, nth_error (q_ev q r k a) p = Some e -> route_of (q_first q r + p) = r;
    wf_ev : forall r k a e, In e (q_ev q r k a) -> 0 <= e < 32 * 1440;
    wf_active : forall t d, q_active q t d = true -> 0 <= d < 512 }.
End Spec.
(** Planned times are not before the timetable's first day and within 60000 days. *)
Definition InRange (v : vstop) : Prop := (forall x, v_dep v = Some x -> 0 <= x < 60000 * 1440) /\ (forall x, v_arr v = Some x -> 0 <= x < 60000 * 1440).

(** * Proofs *)
Lemma enum_in {A} (l : list A) : forall n i x, In (i, x) (enum n l) <-> (n <= i)%nat /\ nth_error l (i - n) = Some x.
Proof.
  induction l as [|y l IH]; intros n i x; cbn [enum]; [split; [intros []|intros (_ & H); destruct (i - n)%nat; discriminate]|]. cbn [In]. rewrite IH. split.
  - intros [[= <- <-]|(L & H)]; [split; [lia|now rewrite Nat.sub_diag]|]. split; [lia|]. replace (i - n)%nat with (S (i - S n)) by lia. exact H.
  - intros (L & H). destruct (Nat.eq_dec i n) as [->|N].
    + rewrite Nat.sub_diag in H. injection H as <-. now left.
    + right. split; [lia|]. replace (i - n)%nat with (S (i - S n)) in H by lia. exact H.
Qed.
Lemma fold_flat {A B C} (f : C -> B -> C) (g : A -> list B) (l : list A) : forall c, fold_left f (flat_map g l) c = fold_left (fun c x => fold_left f (g x) c) l c.
Proof. induction l as [|x l IH]; intros c; cbn [flat_map fold_left]; [reflexivity|]. rewrite fold_left_app. apply IH. Qed.
Lemma fold_ext {A C} (f g : C -> A -> C) (l : list A) : (forall c x, f c x = g c x) -> forall c, fold_left f l c = fold_left g l c.
Proof. intros H. induction l as [|x l IH]; intros c; cbn [fold_left]; [reflexivity|]. rewrite H. apply IH. Qed.
(** Found candidates. *)
Fixpoint look (cs : list cand) (t : transport) : option cand :=
  match cs with [] => None | c :: cs' => if transport_eqb (c_t c) t then Some c else look cs' t end.
Definition H := (transport * nat * nat * Z)%type.                       (* a hit: vehicle, stop, stops, score *)
Definition do_hit (cs : list cand) (h : H) : list cand := let '(t, k, len, s) := h in hit cs t k len s.
Lemma teqb_refl t : transport_eqb t t = true.
Proof. destruct (transport_eqb_spec t t); congruence. Qed.
Lemma look_hit t k len s t' : forall cs, look (hit cs t k len s) t' =
  if transport_eqb t t' then match look cs t with
    | Some c => Some (if (k <? c_from c)%nat then c else raise_best c s)
    | None => Some {| c_t := t; c_from := k; c_len := len; c_score := 0; c_best := s |} end
  else look cs t'.
Proof.
  induction cs as [|c cs IH]; cbn [hit look]; [cbn [c_t]; destruct (transport_eqb t t'); reflexivity|].
  destruct (transport_eqb_spec (c_t c) t) as [<-|N].
  - cbn [look]. assert (E : c_t (if (k <? c_from c)%nat then c else raise_best c s) = c_t c) by (destruct (k <? c_from c)%nat; reflexivity). rewrite E.
    destruct (transport_eqb (c_t c) t'); reflexivity.
  - cbn [look]. rewrite IH. destruct (transport_eqb_spec (c_t c) t') as [<-|N'].
    + destruct (transport_eqb_spec t (c_t c)); [congruence|reflexivity].
    + reflexivity.
Qed.
Lemma hit_ts t k len s : forall cs, (map c_t (hit cs t k len s) = map c_t cs /\ In t (map c_t cs)) \/ (map c_t (hit cs t k len s) = map c_t cs ++ [t] /\ ~ In t (map c_t cs)).
Proof.
  induction cs as [|c cs IH]; cbn [hit map]; [right; auto|]. destruct (transport_eqb_spec (c_t c) t) as [<-|N].
  - left. split; [|now left]. cbn [map]. f_equal. destruct (k <? c_from c)%nat; reflexivity.
  - cbn [map]. destruct IH as [(E & I)|(E & I)]; [left; rewrite E; split; [reflexivity|now right]|right; rewrite E; split; [reflexivity|]]. intros [X|X]; [congruence|contradiction].
Qed.
Lemma look_in cs : NoDup (map c_t cs) -> forall c, In c cs <-> look cs (c_t c) = Some c.
Proof.
  induction cs as [|d cs IH]; intros ND c; cbn [look]; [split; [intros []|discriminate]|]. inversion ND as [|? ? N1 N2]; subst. cbn [In].
  destruct (transport_eqb_spec (c_t d) (c_t c)) as [E|E].
  - split; [intros [->|I]; [reflexivity|]|intros [= ->]; now left]. exfalso. apply N1. rewrite E. now apply in_map.
  - rewrite <- (IH N2). split; [intros [->|I]; [congruence|exact I]|now right].
Qed.
Lemma look_t cs t c : look cs t = Some c -> c_t c = t.
Proof. induction cs as [|d cs IH]; cbn [look]; [discriminate|]. destruct (transport_eqb_spec (c_t d) t) as [<-|N]; [intros [= ->]; reflexivity|exact IH]. Qed.
(** The effect of a list of hits. *)
Definition h_t (h : H) : transport := fst (fst (fst h)).
Definition h_k (h : H) : nat := snd (fst (fst h)).
Definition h_len (h : H) : nat := snd (fst h).
Definition h_s (h : H) : Z := snd h.
Definition best (t : transport) (from : nat) (hs : list H) (b : Z) : Z :=
  fold_left (fun b h => if transport_eqb (h_t h) t && (from <=? h_k h)%nat then Z.max b (h_s h) else b) hs b.
Lemma best_ge t from hs : forall b, b <= best t from hs b.
Proof. induction hs as [|h hs IH]; intros b; cbn [best fold_left]; [lia|]. fold (best t from hs). specialize (IH (if transport_eqb (h_t h) t && (from <=? h_k h)%nat then Z.max b (h_s h) else b)). destruct (_ && _); unfold best in *; lia. Qed.
Lemma best_spec t from hs : forall b, 0 <= b -> (forall h, In h hs -> h_t h = t -> (from <= h_k h)%nat -> h_s h <= best t from hs b) /\
  (best t from hs b = b \/ exists h, In h hs /\ h_t h = t /\ (from <= h_k h)%nat /\ h_s h = best t from hs b).
Proof.
  induction hs as [|h hs IH]; intros b B; [split; [intros h []|now left]|].
  change (best t from (h :: hs) b) with (best t from hs (if transport_eqb (h_t h) t && (from <=? h_k h)%nat then Z.max b (h_s h) else b)).
  set (b' := if transport_eqb (h_t h) t && (from <=? h_k h)%nat then Z.max b (h_s h) else b). assert (B' : 0 <= b') by (unfold b'; destruct (_ && _); lia).
  destruct (IH b' B') as (A & C). pose proof (best_ge t from hs b') as GE. split.
  - intros h' [<-|I] E L; [|auto]. assert (X : b' = Z.max b (h_s h)); [|lia]. unfold b'. rewrite E, teqb_refl. apply Nat.leb_le in L. now rewrite L.
  - destruct C as [C|(h' & I & X)]; [|right; exists h'; split; [now right|exact X]]. rewrite C. unfold b'.
    destruct (transport_eqb_spec (h_t h) t) as [E|E]; [|now left]. destruct (Nat.leb_spec from (h_k h)) as [L|L]; [|now left]. cbn [andb].
    destruct (Z.leb_spec (h_s h) b) as [L2|L2]; [left; lia|right; exists h; split; [now left|]; split; [exact E|]; split; [exact L|lia]].
Qed.
Definition with_best (c : cand) (b : Z) : cand := {| c_t := c_t c; c_from := c_from c; c_len := c_len c; c_score := c_score c; c_best := b |}.
Lemma do_hit_other h t cs : h_t h <> t -> look (do_hit cs h) t = look cs t.
Proof. destruct h as [[[t' k] len] s]. cbn [do_hit h_t fst]. intros N. rewrite look_hit. destruct (transport_eqb_spec t' t); [contradiction|reflexivity]. Qed.
Lemma fold_hits_some t : forall hs cs c, look cs t = Some c -> look (fold_left do_hit hs cs) t = Some (with_best c (best t (c_from c) hs (c_best c))).
Proof.
  induction hs as [|h hs IH]; intros cs c E; cbn [fold_left].
  - rewrite E. destruct c. reflexivity.
  - destruct (transport_eqb_spec (h_t h) t) as [T|T].
    + assert (L : look (do_hit cs h) t = Some (if (h_k h <? c_from c)%nat then c else raise_best c (h_s h))).
      { destruct h as [[[t' k] len] s]. cbn [do_hit h_t h_k h_s fst snd] in *. subst t'. rewrite look_hit, teqb_refl, E. reflexivity. }
      rewrite (IH _ _ L). unfold best at 2. cbn [fold_left]. rewrite T, teqb_refl. cbn [andb]. unfold with_best.
      destruct (Nat.ltb_spec (h_k h) (c_from c)) as [X|X]; destruct (Nat.leb_spec (c_from c) (h_k h)) as [Y|Y]; try lia; reflexivity.
    + rewrite (IH _ c); [|now rewrite do_hit_other]. unfold best at 2. cbn [fold_left]. destruct (transport_eqb_spec (h_t h) t); [contradiction|]. reflexivity.
Qed.
Lemma fold_hits_none t : forall hs cs, look cs t = None -> (forall h, In h hs -> 0 <= h_s h) ->
  (exists h0, In h0 hs /\ h_t h0 = t /\ look (fold_left do_hit hs cs) t = Some {| c_t := t; c_from := h_k h0; c_len := h_len h0; c_score := 0; c_best := best t (h_k h0) hs 0 |}) \/
  ((forall h, In h hs -> h_t h <> t) /\ look (fold_left do_hit hs cs) t = None).
Proof.
  induction hs as [|h hs IH]; intros cs E P; cbn [fold_left]; [right; split; [intros h []|exact E]|].
  destruct (transport_eqb_spec (h_t h) t) as [T|T].
  - left. exists h. split; [now left|]. split; [exact T|].
    assert (L : look (do_hit cs h) t = Some {| c_t := t; c_from := h_k h; c_len := h_len h; c_score := 0; c_best := h_s h |}).
    { destruct h as [[[t' k] len] s]. cbn [do_hit h_t h_k h_len h_s fst snd] in *. subst t'. rewrite look_hit, teqb_refl, E. reflexivity. }
    rewrite (fold_hits_some t hs _ _ L). unfold with_best. cbn [c_t c_from c_len c_score c_best]. unfold best at 2. cbn [fold_left]. rewrite T, teqb_refl, Nat.leb_refl. cbn [andb].
    rewrite Z.max_r by (apply P; now left). reflexivity.
  - assert (L : look (do_hit cs h) t = None) by (now rewrite do_hit_other). destruct (IH _ L) as [(h0 & I & A & B)|(A & B)]; [intros; apply P; now right| |].
    + left. exists h0. split; [now right|]. split; [exact A|]. rewrite B. unfold best at 2. cbn [fold_left]. destruct (transport_eqb_spec (h_t h) t); [contradiction|]. reflexivity.
    + right. split; [|exact B]. intros h' [<-|I]; auto.
Qed.
Lemma fold_hits_ts hs : forall cs, NoDup (map c_t cs) -> NoDup (map c_t (fold_left do_hit hs cs)).
Proof.
  induction hs as [|h hs IH]; intros cs N; cbn [fold_left]; [exact N|]. apply IH. destruct h as [[[t k] len] s]. cbn [do_hit].
  destruct (hit_ts t k len s cs) as [(E & _)|(E & I)]; rewrite E; [exact N|].
  apply Permutation_NoDup with (l := t :: map c_t cs); [apply Permutation_cons_append|]. now constructor.
Qed.
Lemma look_map_finish cs t : look (map finish_stop cs) t = option_map finish_stop (look cs t).
Proof. induction cs as [|c cs IH]; cbn [map look]; [reflexivity|]. cbn [finish_stop c_t]. destruct (transport_eqb (c_t c) t); [reflexivity|exact IH]. Qed.
(** A message stop as a list of hits. *)
Section Hits.
  Variable q : vtt.
  Definition time_hits (r k len : nat) (pl : Z) (pe : nat * Z) : list H :=
    let '(day, mam) := tt_day_idx_mam 0 pl in
    let '(error, shift) := mam_dist mam (snd pe mod 1440) in
    let s := kExactMatchScore - error * error in
    if s <? 0 then []
    else let tr := ((q_first q r + fst pe)%nat, to_u16 (day - to_u16 (snd pe / 1440 - shift))) in
         if q_active q (fst tr) (snd tr) then [(tr, k, len, s)] else [].
  Definition stop_event (v : vstop) (k len : nat) : option (Z * bool) :=
    if Nat.eqb k 0 then get_event (Some false) v else if Nat.eqb k (len - 1) then get_event (Some true) v else get_event None v.
  Definition stop_hits (v : vstop) (l r : nat) (kl : nat * nat) : list H :=
    if negb (Nat.eqb (snd kl) l) then []
    else match stop_event v (fst kl) (length (q_locs q r)) with
         | None => []
         | Some (pl, a) => flat_map (time_hits r (fst kl) (length (q_locs q r)) pl) (enum 0 (q_ev q r (fst kl) a)) end.
  Definition hits (v : vstop) : list H :=
    match v_loc v with None => [] | Some l0 => flat_map (fun l => flat_map (fun r => flat_map (stop_hits v l r) (enum 0 (q_locs q r))) (q_routes q l)) (q_equiv q l0) end.
  Lemma try_time_hits r k len pl cs pe : try_time q r k len pl cs pe = fold_left do_hit (time_hits r k len pl pe) cs.
  Proof.
    unfold try_time, time_hits. destruct (tt_day_idx_mam 0 pl) as [day mam]. destruct (mam_dist mam (snd pe mod 1440)) as [error shift]. cbv zeta.
    destruct (_ <? 0); [reflexivity|]. destruct (q_active q _ _); reflexivity.
  Qed.
  Lemma try_stop_hits v l r cs kl : try_stop q v l r cs kl = fold_left do_hit (stop_hits v l r kl) cs.
  Proof.
    unfold try_stop, stop_hits. destruct (negb _); [reflexivity|]. cbv zeta. fold (stop_event v (fst kl) (length (q_locs q r))). destruct (stop_event v (fst kl) (length (q_locs q r))) as [[pl a]|]; [|reflexivity].
    rewrite fold_flat. apply fold_ext. intros c x. apply try_time_hits.
  Qed.
  Lemma match_stop_hits cs v : v_loc v <> None -> match_stop q cs v = map finish_stop (fold_left do_hit (hits v) cs).
  Proof.
    unfold match_stop, hits. destruct (v_loc v) as [l0|]; [|congruence]. intros _. f_equal. rewrite fold_flat. apply fold_ext. intros c l. rewrite fold_flat. apply fold_ext. intros c' r.
    rewrite fold_flat. apply fold_ext. intros c2 kl. apply try_stop_hits.
  Qed.
  (** Hits are fits. *)
  Variable route_of : nat -> nat.
  Hypothesis WF : Wf q route_of.
  Lemma stop_event_spec v k len pl a : (k < len)%nat -> (stop_event v k len = Some (pl, a) <-> Planned v k len pl a).
  Proof.
    intros L. unfold stop_event, get_event. destruct (Nat.eqb_spec k 0) as [K|K]; [|destruct (Nat.eqb_spec k (len - 1)) as [E|E]]; split.
    - destruct (v_dep v) eqn:D; [intros [= <- <-]; now apply Pl_first|discriminate].
    - intros [x A B|x A|x A|x A]; try congruence. now rewrite B.
    - destruct (v_arr v) eqn:D; [intros [= <- <-]; apply Pl_last; auto; lia|discriminate].
    - intros [x A B|x A B C|x A B C|x A B C]; try congruence; try lia. now rewrite C.
    - destruct (v_dep v) eqn:D; [intros [= <- <-]; apply Pl_dep; auto; lia|]. destruct (v_arr v) eqn:D2; [intros [= <- <-]; apply Pl_arr; auto; lia|discriminate].
    - intros [x A B|x A B C|x A B C|x A B C D]; try congruence; try lia; [now rewrite C|]. now rewrite C, D.
  Qed.
  Lemma planned_range v k len pl a : InRange v -> Planned v k len pl a -> 0 <= pl < 60000 * 1440.
  Proof. intros (A & B) [x ? E|x ? ? E|x ? ? E|x ? ? ? E]; eauto. Qed.
  Lemma time_hits_spec r k len pl p e t k' len' s : 0 <= pl < 60000 * 1440 -> 0 <= e < 32 * 1440 ->
    (In (t, k', len', s) (time_hits r k len pl (p, e)) <->
     k' = k /\ len' = len /\ fst t = (q_first q r + p)%nat /\ q_active q (fst t) (snd t) = true /\ Z.abs (pl - (snd t * 1440 + e)) <= 15 /\
     s = 230 - (pl - (snd t * 1440 + e)) * (pl - (snd t * 1440 + e))).
  Proof.
    intros RP RE. unfold time_hits, tt_day_idx_mam. cbn [fst snd]. rewrite Z.mul_0_l, Z.sub_0_r. rewrite Z.quot_div_nonneg, Z.rem_mod_nonneg by lia.
    assert (DB : 0 <= pl / 1440 < 60000) by (split; [apply Z.div_pos; lia|apply Z.div_lt_upper_bound; lia]).
    assert (TD : to_u16 (pl / 1440) = pl / 1440) by (unfold to_u16; apply Z.mod_small; lia). rewrite TD.
    pose proof (Z.mod_pos_bound pl 1440 ltac:(lia)) as MB. pose proof (Z.mod_pos_bound e 1440 ltac:(lia)) as EB.
    pose proof (Z.div_mod pl 1440 ltac:(lia)) as PD. pose proof (Z.div_mod e 1440 ltac:(lia)) as ED.
    assert (EDB : 0 <= e / 1440 < 32) by (split; [apply Z.div_pos; lia|apply Z.div_lt_upper_bound; lia]).
    pose proof (mam_dist_min (pl mod 1440) (e mod 1440) MB EB) as MD. destruct (mam_dist (pl mod 1440) (e mod 1440)) as [err sh]. destruct MD as (M1 & M2).
    set (D := pl / 1440 - (e / 1440 - sh)).
    assert (ERR : forall d, Z.abs (pl - (d * 1440 + e)) = Z.abs (pl mod 1440 - e mod 1440 - 1440 * (d - (pl / 1440 - e / 1440)))).
    { intros d. f_equal. rewrite PD at 1. rewrite ED at 1. lia. }
    assert (SHB : -1 <= sh <= 1).
    { assert (err <= 720) by (pose proof (M2 0); pose proof (M2 1); pose proof (M2 (-1)); lia). lia. }
    assert (DE : err = Z.abs (pl - (D * 1440 + e))) by (rewrite ERR, M1; f_equal; unfold D; lia).
    assert (SQ : err * err = (pl - (D * 1440 + e)) * (pl - (D * 1440 + e))) by (rewrite DE; rewrite <- Z.abs_mul; apply Z.abs_eq; apply Z.square_nonneg).
    assert (U : forall d, 0 <= d < 512 -> (to_u16 (pl / 1440 - to_u16 (e / 1440 - sh)) = d <-> D = d)).
    { intros d Rd. assert (E1 : to_u16 (pl / 1440 - to_u16 (e / 1440 - sh)) = to_u16 D) by (unfold to_u16, D; rewrite Zminus_mod_idemp_r; reflexivity). rewrite E1. unfold to_u16.
      split; [|intros ->; apply Z.mod_small; lia]. intros X. assert (RD : -64 <= D < 60064) by (unfold D; lia). destruct (Z.leb_spec 0 D) as [P|P]; [rewrite Z.mod_small in X by lia; exact X|].
      assert (D mod 65536 = D + 65536) by (symmetry; apply (Z.mod_unique D 65536 (-1)); lia). lia. }
    unfold kExactMatchScore. cbv zeta. set (tr := ((q_first q r + p)%nat, to_u16 (pl / 1440 - to_u16 (e / 1440 - sh)))). destruct (Z.ltb_spec (230 - err * err) 0) as [NEG|POS].
    - split; [intros []|]. intros (_ & _ & _ & AC & R15 & _). exfalso. rewrite ERR in R15. pose proof (M2 (snd t - (pl / 1440 - e / 1440))) as X. assert (err <= 15) by lia. nia.
    - assert (E15 : err <= 15) by nia. cbn [fst snd]. destruct (q_active q (q_first q r + p) (to_u16 (pl / 1440 - to_u16 (e / 1440 - sh)))) eqn:AC.
      + pose proof (wf_active q route_of WF _ _ AC) as RD. cbn [In].
        assert (DU : D = to_u16 (pl / 1440 - to_u16 (e / 1440 - sh))) by (apply (U _ RD); reflexivity). split.
        * intros [[= <- <- <- <-]|[]]. unfold tr. cbn [fst snd]. rewrite <- DU. split; [reflexivity|]. split; [reflexivity|]. split; [reflexivity|]. split; [rewrite DU; exact AC|]. split; [lia|now rewrite SQ].
        * intros (-> & -> & F & A2 & R15 & ->). left. assert (SD : snd t = D).
          { rewrite ERR in R15. assert (X : Z.abs (pl mod 1440 - e mod 1440 - 1440 * sh) <= 15) by lia. unfold D. lia. }
          rewrite SD, <- SQ. f_equal. f_equal. f_equal. unfold tr. destruct t as [t0 d]. cbn [fst snd] in *. subst. now rewrite <- DU.
      + split; [intros []|]. intros (_ & _ & F & A2 & R15 & _). exfalso. pose proof (wf_active q route_of WF _ _ A2) as RD.
        assert (SD : D = snd t).
        { rewrite ERR in R15. assert (X : Z.abs (pl mod 1440 - e mod 1440 - 1440 * sh) <= 15) by lia. unfold D. lia. }
        apply (U _ RD) in SD. rewrite SD, <- F in AC. congruence.
  Qed.
  Lemma hits_spec v t k len s : InRange v -> (In (t, k, len, s) (hits v) <-> FitsStop q route_of v t k s /\ len = length (q_locs q (route_of (fst t)))).
  Proof.
    intros IR. unfold hits, FitsStop. destruct (v_loc v) as [l0|]; [|split; [intros []|intros ((_ & (l0 & _ & X & _) & _) & _); discriminate]]. split.
    - intros I. apply in_flat_map in I. destruct I as (l & L & I). apply in_flat_map in I. destruct I as (r & R & I). apply in_flat_map in I. destruct I as ([k0 l1] & KL & I).
      apply enum_in in KL. destruct KL as (_ & KL). rewrite Nat.sub_0_r in KL. unfold stop_hits in I. cbn [fst snd] in I. destruct (Nat.eqb_spec l1 l) as [->|]; [|destruct I]. cbn [negb] in I.
      assert (KB : (k0 < length (q_locs q r))%nat) by (apply nth_error_Some; congruence).
      destruct (stop_event v k0 (length (q_locs q r))) as [[pl a]|] eqn:SE; [|destruct I]. apply (stop_event_spec v k0 _ pl a KB) in SE.
      apply in_flat_map in I. destruct I as ([p e] & PE & I). apply enum_in in PE. destruct PE as (_ & PE). rewrite Nat.sub_0_r in PE.
      apply time_hits_spec in I; [|eapply planned_range; eauto|eapply (wf_ev q route_of WF); eapply nth_error_In; eauto]. destruct I as (-> & -> & F & A & B & ->).
      assert (RO : route_of (fst t) = r) by (rewrite F; eapply (wf_pos q route_of WF); eauto). rewrite RO. split; [|reflexivity]. split; [exact A|]. split; [exists l0, l; auto|].
      exists pl, a, (snd t * 1440 + e). split; [exact SE|]. split; [|auto]. unfold TakesPlace. cbv zeta. rewrite RO, F. split; [lia|]. exists e. split; [|reflexivity]. replace (q_first q r + p - q_first q r)%nat with p by lia. exact PE.
    - intros ((A & (l0' & l & [= <-] & L & KL) & (pl & a & x & SE & (FT & e & PE & ->) & B & ->)) & ->). set (r := route_of (fst t)) in *.
      assert (KB : (k < length (q_locs q r))%nat) by (apply nth_error_Some; congruence).
      apply in_flat_map. exists l. split; [exact L|]. apply in_flat_map. exists r. split; [apply (wf_routes q route_of WF); eapply nth_error_In; eauto|]. apply in_flat_map. exists (k, l).
      split; [apply enum_in; split; [lia|now rewrite Nat.sub_0_r]|]. unfold stop_hits. cbn [fst snd]. rewrite Nat.eqb_refl. cbn [negb].
      pose proof SE as SE'. apply (stop_event_spec v k _ pl a KB) in SE'. rewrite SE'. apply in_flat_map. exists ((fst t - q_first q r)%nat, e). split; [apply enum_in; split; [lia|now rewrite Nat.sub_0_r]|].
      apply time_hits_spec; [eapply planned_range; eauto|eapply (wf_ev q route_of WF); eapply nth_error_In; eauto|]. split; [reflexivity|]. split; [reflexivity|]. split; [lia|]. auto.
  Qed.
End Hits.
(** ** The whole message *)
Section Message.
  Variable q : vtt.
  Variable route_of : nat -> nat.
  Hypothesis WF : Wf q route_of.
  Notation Fit := (FitsStop q route_of).
  Lemma fit_pos v t k s : Fit v t k s -> 0 < s <= 230.
  Proof. intros (_ & _ & pl & a & x & _ & _ & B & ->). nia. Qed.
  Lemma points_best v t from : InRange v -> Points q route_of v t from (best t from (hits q v) 0).
  Proof.
    intros IR. destruct (best_spec t from (hits q v) 0 ltac:(lia)) as (A & B).
    assert (A' : forall k s, (from <= k)%nat -> Fit v t k s -> s <= best t from (hits q v) 0).
    { intros k s L F. apply (A (t, k, length (q_locs q (route_of (fst t))), s)); auto. now apply (hits_spec q route_of WF). }
    destruct B as [B|([[[t' k] len] s] & I & E & L & S)].
    - right. split; [exact B|]. intros k s L F. specialize (A' k s L F). apply fit_pos in F. lia.
    - cbn [h_t h_k h_s fst snd] in *. subst t'. apply (hits_spec q route_of WF) in I; [|exact IR]. destruct I as (F & _). left. split; [exists k; split; [exact L|]; now rewrite <- S|exact A'].
  Qed.
  Lemma match_stop_look cs v t : (forall c, In c cs -> c_best c = 0) -> NoDup (map c_t cs) ->
    look (match_stop q cs v) t = option_map finish_stop (look (fold_left do_hit (hits q v) cs) t).
  Proof.
    intros B ND. destruct (v_loc v) as [l0|] eqn:E.
    - rewrite match_stop_hits by congruence. apply look_map_finish.
    - unfold match_stop, hits. rewrite E. cbn [fold_left]. destruct (look cs t) as [c|] eqn:L; [|reflexivity]. cbn [option_map]. f_equal.
      assert (T : c_t c = t) by (eapply look_t; eauto). assert (I : In c cs) by (apply (look_in cs ND); now rewrite T). specialize (B c I). destruct c. cbn in B. subst. unfold finish_stop. cbn. now rewrite Z.add_0_r.
  Qed.
  Lemma match_stop_ts cs v : NoDup (map c_t cs) -> NoDup (map c_t (match_stop q cs v)).
  Proof.
    intros ND. destruct (v_loc v) as [l0|] eqn:E.
    - rewrite match_stop_hits by congruence. rewrite map_map. cbn [finish_stop c_t]. change (fun x => c_t x) with c_t. now apply fold_hits_ts.
    - unfold match_stop. now rewrite E.
  Qed.
  Lemma match_stop_best cs v : (forall c, In c cs -> c_best c = 0) -> forall c, In c (match_stop q cs v) -> c_best c = 0.
  Proof.
    intros B c I. destruct (v_loc v) as [l0|] eqn:E.
    - rewrite match_stop_hits in I by congruence. apply in_map_iff in I. destruct I as (d & <- & _). reflexivity.
    - unfold match_stop in I. rewrite E in I. auto.
  Qed.
  Record MInv (vs : list vstop) (cs : list cand) : Prop := {
    mi_nd : NoDup (map c_t cs);
    mi_best : forall c, In c cs -> c_best c = 0;
    mi_look : forall t, match look cs t with
      | Some c => Begins q route_of vs t (c_from c) /\ Score q route_of vs t (c_from c) (c_score c) /\ c_len c = length (q_locs q (route_of (fst t)))
      | None => forall v, In v vs -> forall k s, ~ Fit v t k s end }.
  Lemma sum_app l x : Sum (l ++ [x]) = Sum l + x.
  Proof. induction l as [|y l IH]; cbn [app Sum fold_right]; [lia|]. fold (Sum (l ++ [x])). fold (Sum l). lia. Qed.
  Lemma minv_step vs cs v : InRange v -> MInv vs cs -> MInv (vs ++ [v]) (match_stop q cs v).
  Proof.
    intros IR [ND B L]. constructor; [now apply match_stop_ts|now apply match_stop_best|]. intros t. rewrite match_stop_look by auto. specialize (L t).
    assert (HP : forall h, In h (hits q v) -> 0 <= h_s h).
    { intros [[[t' k] len] s] I. apply (hits_spec q route_of WF) in I; [|exact IR]. destruct I as (F & _). apply fit_pos in F. cbn. lia. }
    destruct (look cs t) as [c|] eqn:E.
    - rewrite (fold_hits_some t _ _ _ E). cbn [option_map]. destruct L as ((pre & v0 & post & -> & P1 & P2) & (ss & F2 & SC) & LEN). cbn [finish_stop with_best c_from c_score c_len c_best].
      assert (C0 : c_best c = 0) by (apply B; apply (look_in cs ND); rewrite (look_t _ _ _ E); exact E). rewrite C0. split; [|split; [|exact LEN]].
      + exists pre, v0, (post ++ [v]). split; [now rewrite <- app_assoc|]. auto.
      + exists (ss ++ [best t (c_from c) (hits q v) 0]). split; [|rewrite sum_app; lia]. apply Forall2_app; [exact F2|]. constructor; [now apply points_best|constructor].
    - destruct (fold_hits_none t (hits q v) cs E HP) as [([[[t0 k0] len0] s0] & I & T & LK)|(NO & LK)]; rewrite LK; cbn [option_map].
      + cbn [finish_stop c_from c_score c_len c_best h_t h_k h_len h_s fst snd] in *. subst t0. apply (hits_spec q route_of WF) in I; [|exact IR]. destruct I as (F & LEN). split; [|split; [|exact LEN]].
        * exists vs, v, []. split; [reflexivity|]. split; [intros u I; apply L; exact I|]. eauto.
        * exists (map (fun _ => 0) vs ++ [best t k0 (hits q v) 0]). split.
          -- apply Forall2_app; [|constructor; [now apply points_best|constructor]]. clear - L. induction vs as [|u vs IH]; cbn [map]; constructor.
             ++ right. split; [reflexivity|]. intros k s _. apply L. now left.
             ++ apply IH. intros w I. apply L. now right.
          -- rewrite sum_app. assert (Z0 : Sum (map (fun _ : vstop => 0) vs) = 0); [|lia]. clear. induction vs as [|u vs IH]; cbn; [reflexivity|]. exact IH.
      + intros u I k s F. apply in_app_or in I. destruct I as [I|[<-|[]]]; [now apply (L u I k s)|]. apply (NO (t, k, length (q_locs q (route_of (fst t))), s)); [|reflexivity]. now apply (hits_spec q route_of WF).
  Qed.
  Lemma minv_all vs : forall vs0 cs, Forall InRange vs -> MInv vs0 cs -> MInv (vs0 ++ vs) (fold_left (match_stop q) vs cs).
  Proof.
    induction vs as [|v vs IH]; intros vs0 cs IR M; cbn [fold_left]; [now rewrite app_nil_r|]. inversion IR as [|? ? I1 I2]; subst.
    replace (vs0 ++ v :: vs) with ((vs0 ++ [v]) ++ vs) by (rewrite <- app_assoc; reflexivity). apply IH; [exact I2|]. now apply minv_step.
  Qed.
  Lemma minv_nil : MInv [] [].
  Proof. constructor; cbn; [constructor|intros c []|intros t v []]. Qed.
End Message.
(** ** Sorting and thresholds *)
Lemma insert_perm c cs : Permutation (insert c cs) (c :: cs).
Proof. induction cs as [|d cs IH]; cbn [insert]; [auto|]. destruct (cand_lt d c); [|auto]. rewrite IH. apply perm_swap. Qed.
Lemma sort_perm cs : Permutation (sort cs) cs.
Proof. induction cs as [|c cs IH]; cbn [sort fold_right]; [auto|]. fold (sort cs). rewrite insert_perm. now constructor. Qed.
Definition sge (a b : cand) : Prop := c_score b <= c_score a.
Lemma insert_sorted c cs : StronglySorted sge cs -> StronglySorted sge (insert c cs).
Proof.
  intros S. induction S as [|d cs S IH F]; cbn [insert]; [repeat constructor|]. destruct (cand_lt d c) eqn:E.
  - constructor; [exact IH|]. apply Forall_forall. intros x I. apply (Permutation_in x (insert_perm c cs)) in I. destruct I as [<-|I]; [|rewrite Forall_forall in F; auto].
    unfold cand_lt in E. unfold sge. apply orb_true_iff in E. destruct E as [E|E]; [apply Z.gtb_lt in E; lia|]. apply andb_true_iff in E. destruct E as (E & _). apply Z.eqb_eq in E. lia.
  - assert (X : c_score d <= c_score c).
    { unfold cand_lt in E. apply orb_false_iff in E. destruct E as (E & _). rewrite Z.gtb_ltb in E. apply Z.ltb_ge in E. exact E. }
    constructor; [now constructor|]. constructor; [exact X|]. eapply Forall_impl; [|exact F]. intros a. unfold sge. lia.
Qed.
Lemma sort_sorted cs : StronglySorted sge (sort cs).
Proof. induction cs as [|c cs IH]; cbn [sort fold_right]; [constructor|]. now apply insert_sorted. Qed.
Lemma take_while_in (m : Z) cs : StronglySorted sge cs -> forall c, In c (take_while (fun c => 1000 * c_score c >? m) cs) <-> In c cs /\ 1000 * c_score c > m.
Proof.
  intros S. induction S as [|d cs S IH F]; intros c; cbn [take_while]; [split; [intros []|intros ([] & _)]|]. destruct (1000 * c_score d >? m) eqn:E; cbn [In].
  - apply Z.gtb_lt in E. rewrite IH. split; [intros [->|(I & X)]; [split; [now left|lia]|auto]|intros ([->|I] & X); auto].
  - rewrite Z.gtb_ltb in E. apply Z.ltb_ge in E. split; [intros []|]. intros ([->|I] & X); [lia|]. rewrite Forall_forall in F. specialize (F c I). unfold sge in F. lia.
Qed.
Lemma take_while_nodup {A} (f : A -> bool) {B} (g : A -> B) l : NoDup (map g l) -> NoDup (map g (take_while f l)).
Proof.
  induction l as [|x l IH]; intros N; cbn [take_while]; [constructor|]. destruct (f x); [|constructor]. inversion N as [|? ? N1 N2]; subst. cbn [map]. constructor; [|auto].
  intros I. apply N1. clear - I. induction l as [|y l IH]; cbn [take_while] in *; [destruct I|]. destruct (f y); [|destruct I]. cbn [map In] in *. destruct I; auto.
Qed.

(** * C73 *)
(** A run without resolvable id is matched to all vehicles whose score is more than 97.5 % of the best score, if the best score is
    more than half (complete message) or 70 % (incomplete message) of what an exact match of all message stops has. *)
Theorem C73_matched_runs :
  forall (q : vtt) (route_of : nat -> nat) (vs : list vstop) (complete : bool), Wf q route_of -> Forall InRange vs ->
  exists cands : list (transport * nat * Z),
    NoDup (map (fun c => fst (fst c)) cands) /\
    (forall t, (exists from sc, In (t, from, sc) cands) <-> exists v k s, In v vs /\ FitsStop q route_of v t k s) /\
    (forall t from sc, In (t, from, sc) cands -> Begins q route_of vs t from /\ Score q route_of vs t from sc) /\
    NoDup (map (fun x => fst (fst x)) (match_run q None vs complete)) /\
    forall t from len, In (t, from, len) (match_run q None vs complete) <->
      exists sc top, In (t, from, sc) cands /\ len = length (q_locs q (route_of (fst t))) /\
        (exists t' from', In (t', from', top) cands) /\ (forall t' from' sc', In (t', from', sc') cands -> sc' <= top) /\
        (if complete then 2 * top > 230 * Z.of_nat (length vs) else 10 * top > 7 * 230 * Z.of_nat (length vs)) /\ 40 * sc > 39 * top.
Proof.
  intros q route_of vs complete WF IR. pose proof (minv_all q route_of WF vs [] [] IR (minv_nil q route_of)) as M. cbn [app] in M.
  unfold match_run. set (cs := fold_left (match_stop q) vs []) in *. destruct M as [ND _ LK].
  assert (INL : forall c, In c cs -> Begins q route_of vs (c_t c) (c_from c) /\ Score q route_of vs (c_t c) (c_from c) (c_score c) /\ c_len c = length (q_locs q (route_of (fst (c_t c))))).
  { intros c I. specialize (LK (c_t c)). apply (look_in cs ND) in I. rewrite I in LK. exact LK. }
  set (cands := map (fun c => (c_t c, c_from c, c_score c)) cs).
  assert (INC : forall t from sc, In (t, from, sc) cands <-> exists c, In c cs /\ c_t c = t /\ c_from c = from /\ c_score c = sc).
  { intros t from sc. unfold cands. rewrite in_map_iff. split; [intros (c & [= <- <- <-] & I); eauto|intros (c & I & <- & <- & <-); eauto]. }
  exists cands. split; [unfold cands; rewrite map_map; cbn [fst]; exact ND|]. split; [|split; [|split]].
  - intros t. split.
    + intros (from & sc & I). apply INC in I. destruct I as (c & I & <- & _ & _). destruct (INL c I) as ((pre & v & post & E & _ & s & F) & _). exists v, (c_from c), s. split; [rewrite E; apply in_or_app; right; now left|exact F].
    + intros (v & k & s & I & F). specialize (LK t). destruct (look cs t) as [c|] eqn:E; [|now apply (LK v I k s) in F].
      exists (c_from c), (c_score c). apply INC. exists c. pose proof (look_t _ _ _ E) as T. split; [|auto]. apply (look_in cs ND). now rewrite T.
  - intros t from sc I. apply INC in I. destruct I as (c & I & <- & <- & <-). destruct (INL c I) as (A & B & _). auto.
  - destruct (sort cs) as [|f rest] eqn:ES; [constructor|]. destruct (_ >? _); [|constructor]. rewrite map_map. cbn [fst]. apply take_while_nodup. rewrite <- ES.
    eapply Permutation_NoDup; [|exact ND]. apply Permutation_map. symmetry. apply sort_perm.
  - pose proof (sort_sorted cs) as SS. pose proof (sort_perm cs) as SP. intros t from len. destruct (sort cs) as [|f rest] eqn:ES.
    + split; [intros []|]. intros (sc & top & I & _). exfalso. apply INC in I. destruct I as (c & I & _). apply (Permutation_in c (Permutation_sym SP)) in I. destruct I.
    + assert (IF : In f cs) by (apply (Permutation_in f SP); now left).
      assert (MX : forall c, In c cs -> c_score c <= c_score f).
      { intros c I. apply (Permutation_in c (Permutation_sym SP)) in I. destruct I as [<-|I]; [lia|]. inversion SS as [|? ? _ FF]; subst. rewrite Forall_forall in FF. specialize (FF c I). unfold sge in FF. exact FF. }
      assert (TOP : forall top, (exists t' from', In (t', from', top) cands) -> (forall t' from' sc', In (t', from', sc') cands -> sc' <= top) -> top = c_score f).
      { intros top (t' & from' & I) X. apply INC in I. destruct I as (c & I & _ & _ & <-). specialize (MX c I). assert (c_score f <= c_score c); [|lia]. apply (X (c_t f) (c_from f)). apply INC. exists f. auto. }
      unfold kExactMatchScore. destruct (1000 * c_score f >? Z.of_nat (length vs) * 230 * (if complete then 500 else 700)) eqn:ET.
      * apply Z.gtb_lt in ET. rewrite in_map_iff. split.
        -- intros (c & [= <- <- <-] & I). apply take_while_in in I; [|exact SS]. destruct I as (I & X). apply (Permutation_in c SP) in I. exists (c_score c), (c_score f). split; [apply INC; eauto|].
           split; [apply INL; exact I|]. split; [exists (c_t f), (c_from f); apply INC; eauto|]. split; [intros t' from' sc' Y; apply INC in Y; destruct Y as (d & Y & _ & _ & <-); auto|]. split; [destruct complete; lia|lia].
        -- intros (sc & top & I & -> & T1 & T2 & _ & X). rewrite (TOP top T1 T2) in X. apply INC in I. destruct I as (c & I & <- & <- & <-). exists c. destruct (INL c I) as (_ & _ & LEN). rewrite LEN. split; [reflexivity|].
           apply take_while_in; [exact SS|]. split; [apply (Permutation_in c (Permutation_sym SP)); exact I|lia].
      * rewrite Z.gtb_ltb in ET. apply Z.ltb_ge in ET. split; [intros []|]. intros (sc & top & _ & _ & T1 & T2 & X & _). rewrite (TOP top T1 T2) in X. destruct complete; lia.
Qed.
(** A message all of whose stops fit a vehicle to the minute, the first one only at the vehicle's first stop, is matched to the
    whole vehicle. *)
Theorem C73_exact_run_is_found :
  forall (q : vtt) (route_of : nat -> nat) (v0 : vstop) (vs : list vstop) (complete : bool) (t : transport), Wf q route_of -> Forall InRange (v0 :: vs) ->
  (forall v, In v (v0 :: vs) -> exists k, FitsStop q route_of v t k 230) -> (forall k s, FitsStop q route_of v0 t k s -> k = O) ->
  In (t, O, length (q_locs q (route_of (fst t)))) (match_run q None (v0 :: vs) complete).
Proof.
  intros q route_of v0 vs complete t WF IR EX ON. destruct (C73_matched_runs q route_of (v0 :: vs) complete WF IR) as (cands & _ & C1 & C2 & _ & C3). apply C3.
  assert (BOUND : forall ws t' from sc, Score q route_of ws t' from sc -> sc <= 230 * Z.of_nat (length ws)).
  { intros ws t' from sc (ss & F2 & ->). induction F2 as [|w s ws ss P F2 IH]; cbn [Sum fold_right length]; [lia|]. fold (Sum ss).
    assert (s <= 230); [|lia]. destruct P as [((k & _ & F) & _)|(-> & _)]; [apply fit_pos in F; lia|lia]. }
  destruct (EX v0 (or_introl eq_refl)) as (k0 & F0). destruct (proj2 (C1 t)) as (from & sc & I); [exists v0, k0, 230; split; [now left|exact F0]|].
  destruct (C2 t from sc I) as ((pre & v & post & E & NO & s & F) & SC).
  assert (FROM : from = O).
  { destruct pre as [|u pre]; cbn [app] in E; [injection E as <- _; eapply ON; exact F|]. injection E as <- _. exfalso. apply (NO v0 (or_introl eq_refl) k0 230 F0). }
  subst from. assert (FULL : sc = 230 * Z.of_nat (length (v0 :: vs))).
  { pose proof (BOUND _ _ _ _ SC) as UB. apply Z.le_antisymm; [exact UB|]. clear UB. destruct SC as (ss & F2 & ->). clear - F2 EX. induction F2 as [|w s ws ss P F2 IH]; cbn [Sum fold_right length]; [lia|]. fold (Sum ss).
    assert (IH' : 230 * Z.of_nat (length ws) <= Sum ss) by (apply IH; intros v I; apply EX; now right). assert (230 <= s); [|lia].
    destruct (EX w (or_introl eq_refl)) as (k & F). destruct P as [(_ & P)|(_ & P)]; [apply (P k 230); [lia|exact F]|exfalso; apply (P k 230); [lia|exact F]]. }
  exists sc, sc. split; [exact I|]. split; [reflexivity|]. split; [eauto|]. split.
  - intros t' from' sc' I'. destruct (C2 t' from' sc' I') as (_ & SC'). apply BOUND in SC'. lia.
  - rewrite FULL. cbn [length]. split; [destruct complete; lia|lia].
Qed.

(** * Example *)
(** Route 0: stops at locations 0, 1, 2; vehicles 5 and 6 at 23:50, 0:00, 0:10 of the next day, and one hour later; route 1: the
    reverse.  Location 7 is equivalent to 0. *)
Definition ex_q : vtt :=
  {| q_equiv := fun l => match l with 7%nat => [7; 0]%nat | _ => [l] end; q_routes := fun l => if (l <? 3)%nat then [0; 1]%nat else [];
     q_locs := fun r => match r with O => [0; 1; 2]%nat | 1%nat => [2; 1; 0]%nat | _ => [] end; q_first := fun r => match r with O => 5%nat | _ => 7%nat end;
     q_ev := fun r k a => match r with O => if (k <? 3)%nat then [1430 + 10 * Z.of_nat k; 1490 + 10 * Z.of_nat k] else [] | 1%nat => [700] | _ => [] end;
     q_active := fun t d => (0 <=? d) && (d <? 10) |}.
Definition ex_route (t : nat) : nat := if (t <? 7)%nat then 0%nat else 1%nat.
Definition ex_stop (l : nat) (dep arr : option Z) : vstop :=
  {| v_loc := Some l; v_dep := dep; v_arr := arr; v_rt_dep := None; v_rt_arr := None; v_no_in := false; v_no_out := false; v_pass := false; v_arr_c := false; v_dep_c := false |}.
Example C73_example :
  match_run ex_q None [ex_stop 7 (Some (3 * 1440 + 1430)) None; ex_stop 1 (Some (4 * 1440)) None; ex_stop 2 None (Some (4 * 1440 + 10))] true = [((5%nat, 3), 0%nat, 3%nat)] /\
  match_run ex_q None [ex_stop 7 (Some (3 * 1440 + 1441)) None; ex_stop 1 (Some (4 * 1440 + 12)) None; ex_stop 2 None (Some (4 * 1440 + 22))] true = [] /\
  match_run ex_q None [ex_stop 1 (Some (4 * 1440)) None; ex_stop 2 None (Some (4 * 1440 + 10))] false = [((5%nat, 3), 1%nat, 3%nat)] /\
  Forall InRange [ex_stop 7 (Some (3 * 1440 + 1430)) None; ex_stop 1 (Some (4 * 1440)) None; ex_stop 2 None (Some (4 * 1440 + 10))].
Proof.
  split; [vm_compute; reflexivity|]. split; [vm_compute; reflexivity|]. split; [vm_compute; reflexivity|].
  repeat (apply Forall_cons; [split; cbn; intros x E; inversion E; subst; lia|]). apply Forall_nil.
Qed.
Example C73_example_wf : Wf ex_q ex_route.
Proof.
  constructor.
  - intros l r. cbn. destruct r as [|[|r]].
    + destruct l as [|[|[|l]]]; cbn; intuition (try discriminate; auto).
    + destruct l as [|[|[|l]]]; cbn; intuition (try discriminate; auto).
    + destruct l as [|[|[|l]]]; cbn; intuition (try discriminate; auto).
  - intros r k a p e H. destruct r as [|[|r]]; cbn [ex_q q_ev] in H.
    + destruct (k <? 3)%nat; [|destruct p; cbn in H; discriminate H]. destruct p as [|[|p]]; [reflexivity|reflexivity|destruct p; cbn in H; discriminate H].
    + destruct p as [|p]; [reflexivity|destruct p; cbn in H; discriminate H].
    + destruct p; cbn in H; discriminate H.
  - intros r k a e H. destruct r as [|[|r]]; cbn [ex_q q_ev] in H.
    + destruct (Nat.ltb_spec k 3) as [L|L]; [|contradiction]. destruct H as [<-|[<-|[]]]; lia.
    + destruct H as [<-|[]]; lia.
    + contradiction.
  - intros t d H. cbn in H. apply andb_true_iff in H. destruct H as (A & B). apply Z.leb_le in A. apply Z.ltb_lt in B. lia.
Qed.
