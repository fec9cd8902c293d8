(** Properties C26 (via stops), C27 (flipping a query), C28 (transfer times). *)
From Coq Require Import List ZArith Lia Bool Arith Reals Lra Permutation.
From Flocq Require Import Core.
From Verif Require Import Base Time_Model Query_Model.
Import ListNotations.
Local Open Scope Z_scope.

(** ** C26 *)
(** Places at which a via at [a] is satisfied under equivalence matching: the location itself, everything in the station
    of [a] (two levels below its root) and in every station declared equivalent to [a]. *)
Inductive in_station (L : locations) (root : nat) : nat -> Prop :=
| is_root : in_station L root root
| is_child c : In c (ls_children L root) -> in_station L root c
| is_grandchild c g : In c (ls_children L root) -> In g (ls_children L c) -> in_station L root g.
Definition same_place (L : locations) (a b : nat) : Prop :=
  a = b \/ in_station L (get_root_idx L a) b \/ exists e, In e (ls_equiv L a) /\ in_station L e b.

Lemma in_station_list L r x : In x (r :: with_children L r) <-> in_station L r x.
Proof.
  unfold with_children. simpl. rewrite in_flat_map. split.
  - intros [<-|(c & Hc & [<-|Hx])]; [constructor|now apply is_child|now apply is_grandchild with c].
  - intros H. inversion H; subst; [now left| |].
    + right. exists x. split; auto. now left.
    + right. exists c. split; auto. now right.
Qed.
Lemma matches_place L a b : matches L kEquivalent a b = true <-> same_place L a b.
Proof.
  unfold matches, same_place. rewrite orb_true_iff, Nat.eqb_eq, existsb_exists.
  assert (E : (exists x, In x (metas L kEquivalent a) /\ (x =? b)%nat = true) <-> In b (metas L kEquivalent a)).
  { split; [intros (x & Hx & E); apply Nat.eqb_eq in E; now subst|]. intros H. exists b. split; auto. apply Nat.eqb_refl. }
  rewrite E. unfold metas. rewrite in_app_iff, in_station_list, in_flat_map.
  split; intros [H|[H|H]]; auto; right; right; destruct H as (e & He & H); exists e; (split; [exact He|]); now apply in_station_list.
Qed.

Definition total_stay (vs : list via_stop) : Z := fold_right Z.add 0 (map via_stay vs).

(** [out] arises from [vs] by merging runs of neighbours into the first of each run: the run's other vias are satisfied at the
    place of the first one, its stay is the sum of the stays, order is kept and nothing is dropped. *)
Inductive merged (L : locations) : list via_stop -> list via_stop -> Prop :=
| mg_nil : merged L [] []
| mg_run a run vs out :
    (forall b, In b run -> same_place L (via_loc a) (via_loc b)) ->
    merged L vs out ->
    merged L (a :: run ++ vs) (mk_via (via_loc a) (total_stay (a :: run)) :: out).

Fixpoint no_adjacent (L : locations) (vs : list via_stop) : Prop :=
  match vs with
  | a :: ((b :: _) as tl) => ~ same_place L (via_loc a) (via_loc b) /\ no_adjacent L tl
  | _ => True
  end.
Fixpoint stays_ok (vs : list via_stop) : Prop := match vs with [] => True | v :: r => 0 <= via_stay v /\ stays_ok r end.

Lemma total_nonneg vs : stays_ok vs -> 0 <= total_stay vs.
Proof. unfold total_stay. induction vs; simpl; intros H; [lia|]. destruct H as [H1 H2]. specialize (IHvs H2). lia. Qed.
Lemma merged_refl L vs : merged L vs vs.
Proof.
  induction vs as [|v vs IH]; [constructor|].
  assert (E : mk_via (via_loc v) (total_stay [v]) = v) by (destruct v; unfold total_stay; simpl; f_equal; lia).
  pose proof (mg_run L v [] vs vs ltac:(intros b []) IH) as H. now rewrite E in H.
Qed.
Lemma to_i16_id z : -32768 <= z <= 32767 -> to_i16 z = z.
Proof. intros. unfold to_i16. rewrite Z.mod_small; lia. Qed.

Lemma total_app a b : total_stay (a ++ b) = total_stay a + total_stay b.
Proof. unfold total_stay. rewrite map_app. induction (map via_stay a); simpl; lia. Qed.
Lemma total_cons a b : total_stay (a :: b) = via_stay a + total_stay b.
Proof. reflexivity. Qed.

Lemma merge_first_length L vs vs' : merge_first L vs = Some vs' -> length vs = S (length vs').
Proof.
  revert vs'. induction vs as [|a vs IH]; intros vs' H; [discriminate|]. cbn [merge_first] in H.
  destruct vs as [|b r]; [discriminate|]. destruct (matches L kEquivalent (via_loc a) (via_loc b)).
  - injection H as <-. reflexivity.
  - destruct (merge_first L (b :: r)) as [tl'|] eqn:E; [|discriminate]. injection H as <-. simpl. f_equal. now apply IH.
Qed.
Lemma merge_first_none L vs : merge_first L vs = None -> no_adjacent L vs.
Proof.
  induction vs as [|a vs IH]; intros H; [exact I|]. cbn [merge_first] in H. destruct vs as [|b r]; [exact I|].
  destruct (matches L kEquivalent (via_loc a) (via_loc b)) eqn:E; [discriminate|].
  destruct (merge_first L (b :: r)) as [tl'|] eqn:E2; [discriminate|].
  split; [rewrite <- matches_place; congruence|]. now apply IH.
Qed.
Lemma no_adjacent_none L vs : no_adjacent L vs -> merge_first L vs = None.
Proof.
  induction vs as [|a vs IH]; intros H; [reflexivity|]. cbn [merge_first]. destruct vs as [|b r]; [reflexivity|].
  destruct H as [H1 H2]. rewrite <- matches_place in H1. destruct (matches L kEquivalent (via_loc a) (via_loc b)); [tauto|].
  now rewrite IH.
Qed.

(** The loop computes the left-to-right merge. *)
Fixpoint greedy (L : locations) (a : via_stop) (vs : list via_stop) : list via_stop :=
  match vs with
  | [] => [a]
  | b :: r => if matches L kEquivalent (via_loc a) (via_loc b)
              then greedy L (mk_via (via_loc a) (to_i16 (via_stay a + via_stay b))) r
              else a :: greedy L b r
  end.
Lemma merge_first_skip L pre a b r :
  no_adjacent L (pre ++ [a]) -> matches L kEquivalent (via_loc a) (via_loc b) = true ->
  merge_first L (pre ++ a :: b :: r) = Some (pre ++ mk_via (via_loc a) (to_i16 (via_stay a + via_stay b)) :: r).
Proof.
  induction pre as [|x pre IH]; intros H Hm.
  - cbn [app merge_first]. now rewrite Hm.
  - destruct pre as [|y pre].
    + cbn [app] in *. destruct H as [H1 _]. rewrite <- matches_place in H1.
      cbn [merge_first]. destruct (matches L kEquivalent (via_loc x) (via_loc a)); [tauto|]. now rewrite Hm.
    + destruct H as [H1 H2]. specialize (IH H2 Hm). rewrite <- matches_place in H1.
      change ((x :: y :: pre) ++ a :: b :: r) with (x :: (y :: pre) ++ a :: b :: r).
      cbn [app] in IH |- *. cbn [merge_first]. cbn [merge_first] in IH.
      destruct (matches L kEquivalent (via_loc x) (via_loc y)); [tauto|]. now rewrite IH.
Qed.
Lemma no_adjacent_snoc L pre a b : no_adjacent L (pre ++ [a]) -> ~ same_place L (via_loc a) (via_loc b) -> no_adjacent L ((pre ++ [a]) ++ [b]).
Proof.
  induction pre as [|x pre IH]; intros H Hn; [simpl; auto|].
  destruct pre as [|y pre]; simpl in *; intuition.
Qed.
Lemma no_adjacent_loc L pre a a' : via_loc a = via_loc a' -> no_adjacent L (pre ++ [a]) -> no_adjacent L (pre ++ [a']).
Proof.
  intros E. induction pre as [|x pre IH]; intros H; [exact I|].
  destruct pre as [|y pre]; simpl in *; [rewrite <- E; auto|intuition].
Qed.
Lemma loop_greedy L : forall rest fuel pre a,
  no_adjacent L (pre ++ [a]) -> (length rest < fuel)%nat ->
  sanitize_via_loop fuel L (pre ++ a :: rest) = Some (pre ++ greedy L a rest).
Proof.
  induction rest as [|b r IH]; intros fuel pre a H Hf.
  - destruct fuel; [simpl in Hf; lia|]. cbn [sanitize_via_loop]. now rewrite no_adjacent_none by exact H.
  - cbn [greedy]. destruct (matches L kEquivalent (via_loc a) (via_loc b)) eqn:E.
    + destruct fuel; [simpl in Hf; lia|]. cbn [sanitize_via_loop]. rewrite merge_first_skip by assumption.
      apply IH; [|simpl in Hf; lia]. eapply no_adjacent_loc; [|exact H]. reflexivity.
    + replace (pre ++ a :: b :: r) with ((pre ++ [a]) ++ b :: r) by (rewrite <- app_assoc; reflexivity).
      rewrite IH; [now rewrite <- app_assoc| |simpl in Hf; lia].
      apply no_adjacent_snoc; auto. rewrite <- matches_place. congruence.
Qed.
Lemma sanitize_via_greedy L vs :
  sanitize_via_stops L vs = Some (match vs with [] => [] | a :: r => greedy L a r end).
Proof.
  unfold sanitize_via_stops. destruct vs as [|a r]; [reflexivity|].
  rewrite (loop_greedy L r _ [] a); [reflexivity|exact I|simpl; lia].
Qed.
Lemma greedy_merged L : forall rest a run,
  (forall b, In b run -> same_place L (via_loc a) (via_loc b)) ->
  stays_ok (a :: run ++ rest) -> total_stay (a :: run ++ rest) <= 32767 ->
  merged L (a :: run ++ rest) (greedy L (mk_via (via_loc a) (total_stay (a :: run))) rest).
Proof.
  induction rest as [|b r IH]; intros a run Hrun Hok Hsum.
  - cbn [greedy]. rewrite app_nil_r. pose proof (mg_run L a run [] [] Hrun (mg_nil L)) as H. now rewrite app_nil_r in H.
  - assert (Hpart : 0 <= total_stay (a :: run) /\ 0 <= via_stay b /\ 0 <= total_stay r).
    { simpl in Hok. destruct Hok as [H0 H1]. assert (Ha : stays_ok run /\ 0 <= via_stay b /\ stays_ok r).
      { clear - H1. induction run as [|x run IH]; simpl in *; [tauto|]. destruct H1 as [H1 H2]. apply IH in H2. tauto. }
      destruct Ha as (K1 & K2 & K3). rewrite total_cons. apply total_nonneg in K1, K3. lia. }
    cbn [greedy via_loc via_stay]. destruct (matches L kEquivalent (via_loc a) (via_loc b)) eqn:E.
    + rewrite to_i16_id.
      * replace (total_stay (a :: run) + via_stay b) with (total_stay (a :: run ++ [b]))
          by (rewrite !(total_cons a), total_app, (total_cons b); change (total_stay []) with 0; lia).
        replace (a :: run ++ b :: r) with (a :: (run ++ [b]) ++ r) by (rewrite <- app_assoc; reflexivity).
        apply IH.
        -- intros x Hx. apply in_app_iff in Hx. destruct Hx as [Hx|[<-|[]]]; auto. now apply matches_place.
        -- now rewrite <- app_assoc.
        -- now rewrite <- app_assoc.
      * change (a :: run ++ b :: r) with ((a :: run) ++ b :: r) in Hsum. rewrite total_app, (total_cons b) in Hsum. lia.
    + apply mg_run; auto.
      specialize (IH b []). simpl app in IH.
      assert (Eb : mk_via (via_loc b) (total_stay [b]) = b) by (destruct b; unfold total_stay; simpl; f_equal; lia).
      rewrite Eb in IH. apply IH.
      * simpl; tauto.
      * simpl in Hok. destruct Hok as [_ H1]. clear - H1. induction run; simpl in *; tauto.
      * change (a :: run ++ b :: r) with ((a :: run) ++ b :: r) in Hsum. rewrite total_app in Hsum. lia.
Qed.
Lemma greedy_no_adjacent L : forall rest a pre, no_adjacent L (pre ++ [a]) -> no_adjacent L (pre ++ greedy L a rest).
Proof.
  induction rest as [|b r IH]; intros a pre H; cbn [greedy]; auto.
  destruct (matches L kEquivalent (via_loc a) (via_loc b)) eqn:E.
  - apply IH. eapply no_adjacent_loc; [|exact H]. reflexivity.
  - replace (pre ++ a :: greedy L b r) with ((pre ++ [a]) ++ greedy L b r) by (rewrite <- app_assoc; reflexivity).
    apply IH. apply no_adjacent_snoc; auto. rewrite <- matches_place. congruence.
Qed.
Lemma merged_total L vs out : merged L vs out -> total_stay out = total_stay vs.
Proof.
  induction 1 as [|a run vs out Hr Hm IH]; auto.
  rewrite (total_cons (mk_via _ _)). cbn [via_stay]. rewrite IH. rewrite !total_cons, total_app. lia.
Qed.

(** C26.  For every location hierarchy and every list of vias with non-negative stays (sum within 16 bits): sanitising
    terminates; the result merges runs of neighbouring vias at the same place (order kept, nothing dropped, stays added
    up), no two neighbours of the result are at the same place and the total required stay is unchanged. *)
Theorem C26_via_stops : forall L vs,
  stays_ok vs -> total_stay vs <= 32767 ->
  exists out, sanitize_via_stops L vs = Some out /\ merged L vs out /\ no_adjacent L out /\ total_stay out = total_stay vs.
Proof.
  intros L vs Hok Hsum. rewrite sanitize_via_greedy. eexists. split; [reflexivity|].
  assert (Hm : merged L vs (match vs with [] => [] | a :: r => greedy L a r end)).
  { destruct vs as [|a r]; [constructor|].
    pose proof (greedy_merged L r a [] ltac:(simpl; tauto) Hok Hsum) as H.
    assert (Ea : mk_via (via_loc a) (total_stay [a]) = a) by (destruct a; unfold total_stay; simpl; f_equal; lia).
    now rewrite Ea in H. }
  split; [exact Hm|]. split; [|eapply merged_total; eauto].
  destruct vs as [|a r]; [exact I|]. apply (greedy_no_adjacent L r a []). exact I.
Qed.
(** Sanitising twice (raptor_search.cc:59 and search.h:201) changes nothing more, whatever the stays: the number of vias the
    search was specialised for stays the number of vias it sees. *)
Theorem C26_sanitize_twice : forall rest L (q q' : query rest), sanitize L q = Some q' ->
  exists q'', sanitize L q' = Some q'' /\ q_via q'' = q_via q' /\ q_max_travel_time q'' = q_max_travel_time q'.
Proof.
  intros rest L q q' H. unfold sanitize in *. destruct (is_intermodal (q_start_mode q) && q_use_start_footpaths q) eqn:E; [discriminate|].
  rewrite sanitize_via_greedy in H. injection H as <-. cbn [q_start_mode q_use_start_footpaths q_via q_max_travel_time].
  rewrite E. set (out := match q_via q with [] => [] | a :: r => greedy L a r end).
  assert (Hn : no_adjacent L out).
  { unfold out. destruct (q_via q) as [|a r]; [exact I|]. apply (greedy_no_adjacent L r a []). exact I. }
  unfold sanitize_via_stops. cbn [sanitize_via_loop]. rewrite no_adjacent_none by exact Hn.
  eexists. split; [reflexivity|]. cbn [q_via q_max_travel_time]. split; auto.
  unfold sanitize_travel_time. destruct ((q_max_travel_time q <? 0) || (7200 <? q_max_travel_time q)) eqn:E2; [reflexivity|now rewrite E2].
Qed.
(** Sanitised queries: travel time limit within [0, 5 days], and unchanged if it was; starts and destinations are the same
    offsets ordered by duration; the rest of the query is untouched. *)
Fixpoint durations_sorted (l : list offset) : Prop :=
  match l with a :: ((b :: _) as tl) => o_duration a <= o_duration b /\ durations_sorted tl | _ => True end.
Lemma insert_offset_perm o l : Permutation (insert_offset o l) (o :: l).
Proof. induction l as [|x l IH]; simpl; auto. destruct (o_duration o <? o_duration x); auto. rewrite IH. apply perm_swap. Qed.
Lemma insert_offset_sorted o l : durations_sorted l -> durations_sorted (insert_offset o l).
Proof.
  induction l as [|x l IH]; intros H; [exact I|]. cbn [insert_offset]. destruct (Z.ltb_spec (o_duration o) (o_duration x)).
  - split; [lia|exact H].
  - assert (H2 : durations_sorted l) by (destruct l; [exact I|apply H]). specialize (IH H2).
    destruct l as [|y l]; [simpl; split; [lia|exact I]|]. cbn [insert_offset] in *.
    destruct (Z.ltb_spec (o_duration o) (o_duration y)); (split; [|exact IH]); [lia|apply H].
Qed.
Lemma sort_offsets_ok l : Permutation (sort_offsets l) l /\ durations_sorted (sort_offsets l).
Proof.
  unfold sort_offsets. assert (H : forall l acc, durations_sorted acc ->
    Permutation (fold_left (fun acc o => insert_offset o acc) l acc) (acc ++ l) /\
    durations_sorted (fold_left (fun acc o => insert_offset o acc) l acc)).
  { clear l. induction l as [|o l IH]; intros acc Ha; simpl; [rewrite app_nil_r; auto|].
    destruct (IH (insert_offset o acc) (insert_offset_sorted o acc Ha)) as [H1 H2]. split; auto.
    rewrite H1, insert_offset_perm. simpl. apply Permutation_middle. }
  apply (H l []). exact I.
Qed.
Theorem C26_sanitized_query : forall rest L (q q' : query rest), sanitize L q = Some q' ->
  0 <= q_max_travel_time q' <= 7200 /\
  (0 <= q_max_travel_time q <= 7200 -> q_max_travel_time q' = q_max_travel_time q) /\
  Permutation (q_start q') (q_start q) /\ durations_sorted (q_start q') /\
  Permutation (q_dest q') (q_dest q) /\ durations_sorted (q_dest q') /\
  q_start_mode q' = q_start_mode q /\ q_dest_mode q' = q_dest_mode q /\ q_td_start q' = q_td_start q /\
  q_td_dest q' = q_td_dest q /\ q_rest q' = q_rest q /\
  ~ (q_start_mode q = kIntermodal /\ q_use_start_footpaths q = true).
Proof.
  intros rest L q q' H. unfold sanitize in H.
  destruct (is_intermodal (q_start_mode q) && q_use_start_footpaths q) eqn:E; [discriminate|].
  rewrite sanitize_via_greedy in H. injection H as <-.
  cbn [q_max_travel_time q_start q_dest q_start_mode q_dest_mode q_td_start q_td_dest q_rest].
  unfold sanitize_travel_time.
  split; [destruct (Z.ltb_spec (q_max_travel_time q) 0), (Z.ltb_spec 7200 (q_max_travel_time q)); simpl; lia|].
  split; [destruct (Z.ltb_spec (q_max_travel_time q) 0), (Z.ltb_spec 7200 (q_max_travel_time q)); simpl; lia|].
  destruct (sort_offsets_ok (q_start q)) as [S1 S2], (sort_offsets_ok (q_dest q)) as [S3 S4].
  do 4 (split; [assumption|]). do 5 (split; [reflexivity|]).
  intros [H1 H2]. rewrite H1, H2 in E. discriminate.
Qed.

(** Station 1 with tracks 2 and 3; the vias "track 2 for 5 minutes", "track 3 for 10 minutes", "stop 7" become
    "track 2 for 15 minutes", "stop 7". *)
Definition c26_locs : locations :=
  mk_locs (fun l => match l with 2%nat => Some 1%nat | 3%nat => Some 1%nat | _ => None end)
          (fun l => match l with 1%nat => [2%nat; 3%nat] | _ => [] end) (fun _ => []) (fun _ => false).
Example C26_nonvacuous :
  let vs := [mk_via 2 5; mk_via 3 10; mk_via 7 0] in
  stays_ok vs /\ total_stay vs <= 32767 /\
  sanitize_via_stops c26_locs vs = Some [mk_via 2 15; mk_via 7 0].
Proof. simpl. split; [lia|]. split; [unfold total_stay; simpl; lia|reflexivity]. Qed.

(** ** C27 *)
Theorem C27_flip_twice : forall rest (q : query rest), flip_dir (flip_dir q) = q.
Proof. intros rest []. unfold flip_dir. cbn. now rewrite rev_involutive. Qed.
(** One flip exchanges the two ends of the query and reverses the order in which vias are visited; nothing else changes. *)
Theorem C27_flip_exchanges_ends : forall rest (q : query rest),
  q_start (flip_dir q) = q_dest q /\ q_dest (flip_dir q) = q_start q /\
  q_td_start (flip_dir q) = q_td_dest q /\ q_td_dest (flip_dir q) = q_td_start q /\
  q_start_mode (flip_dir q) = q_dest_mode q /\ q_dest_mode (flip_dir q) = q_start_mode q /\
  (forall i, (i < length (q_via q))%nat ->
     nth_error (q_via (flip_dir q)) i = nth_error (q_via q) (length (q_via q) - 1 - i)) /\
  length (q_via (flip_dir q)) = length (q_via q) /\
  q_rest (flip_dir q) = q_rest q /\ q_max_travel_time (flip_dir q) = q_max_travel_time q /\
  q_use_start_footpaths (flip_dir q) = q_use_start_footpaths q.
Proof.
  intros rest q. cbn [flip_dir q_start q_dest q_td_start q_td_dest q_start_mode q_dest_mode q_via q_rest q_max_travel_time q_use_start_footpaths].
  do 6 (split; [reflexivity|]). split; [|split; [apply rev_length|auto]].
  intros i Hi. destruct (q_via q) as [|v vs] eqn:E; [simpl in Hi; lia|]. rewrite <- E in *.
  rewrite !(nth_error_nth' _ v) by (rewrite ?rev_length; lia). f_equal. rewrite rev_nth by lia. f_equal. lia.
Qed.
(** The two halves of a ping-pong search see compatible queries: sanitising commutes with flipping when neighbouring vias
    are at different places in both directions. *)
Theorem C27_flip_of_sanitized : forall rest L (q : query rest),
  no_adjacent L (q_via q) -> no_adjacent L (rev (q_via q)) ->
  ~ (q_use_start_footpaths q = true /\ (q_start_mode q = kIntermodal \/ q_dest_mode q = kIntermodal)) ->
  exists q1, sanitize L q = Some q1 /\ sanitize L (flip_dir q) = Some (flip_dir q1).
Proof.
  intros rest L q H1 H2 H3. unfold sanitize. cbn [flip_dir q_start_mode q_use_start_footpaths q_via].
  assert (E1 : is_intermodal (q_start_mode q) && q_use_start_footpaths q = false).
  { destruct (q_use_start_footpaths q); [|apply andb_false_r]. destruct (q_start_mode q); auto. exfalso. tauto. }
  assert (E2 : is_intermodal (q_dest_mode q) && q_use_start_footpaths q = false).
  { destruct (q_use_start_footpaths q); [|apply andb_false_r]. destruct (q_dest_mode q); auto. exfalso. tauto. }
  rewrite E1, E2. unfold sanitize_via_stops. cbn [sanitize_via_loop]. rewrite !no_adjacent_none by assumption.
  eexists. split; reflexivity.
Qed.

(** ** C28 *)
Lemma rnd32_le x y : (x <= y)%R -> (rnd32 x <= rnd32 y)%R.
Proof. intros. unfold rnd32. apply round_le; auto; [apply FLT_exp_valid; unfold Prec_gt_0; lia|apply valid_rnd_N]. Qed.
Lemma rnd32_int d : 0 <= d <= 16777216 -> rnd32 (IZR d) = IZR d.
Proof.
  intros H. unfold rnd32. apply round_generic; [apply valid_rnd_N|].
  destruct (Z.eq_dec d 16777216) as [->|Hd].
  - apply generic_format_FLT. exists (Float radix2 1 24); simpl; try lia. unfold F2R; simpl. lra.
  - apply generic_format_FLT. exists (Float radix2 d 0); simpl; try lia. unfold F2R; simpl. lra.
Qed.
Lemma trunc_ge d x : (IZR d <= x)%R -> 0 <= d -> d <= Ztrunc x.
Proof. intros H Hd. rewrite <- (Ztrunc_IZR d). apply Ztrunc_le. exact H. Qed.

(** Value of the settings on paper: factor times the duration (in single precision, rounded down to minutes), raised to the
    minimum, plus the additional time. *)
Definition intended (s : tts) (d : Z) : Z :=
  if t_default s then d else t_add s + Z.max (t_min s) (Ztrunc (rnd32 (IZR d * t_factor s))).
Lemma intended_eq s d : 0 <= d <= 16777216 -> adjusted_transfer_time (fun z => z) s d = intended s d.
Proof. intros H. unfold adjusted_transfer_time, intended. rewrite rnd32_int by exact H. reflexivity. Qed.

(** Every conversion to the representation type that keeps the values 0 .. max. *)
Definition keeps (cast : Z -> Z) (mx : Z) : Prop := forall z, 0 <= z <= mx -> cast z = z.
Lemma cast_ok cast mx s d :
  keeps cast mx -> 0 <= t_min s -> 0 <= t_add s -> (1 <= t_factor s)%R -> 0 <= d <= 16777216 -> intended s d <= mx ->
  adjusted_transfer_time cast s d = intended s d.
Proof.
  intros Hk Hmin Hadd Hf Hd Hfit. unfold adjusted_transfer_time, intended in *. destruct (t_default s); [reflexivity|].
  rewrite rnd32_int by exact Hd.
  assert (Ht : 0 <= Ztrunc (rnd32 (IZR d * t_factor s))).
  { apply Z.le_trans with d; [lia|]. apply trunc_ge; [|lia]. rewrite <- (rnd32_int d) at 1 by exact Hd. apply rnd32_le.
    assert (0 <= IZR d)%R by (apply IZR_le; lia). nra. }
  set (x := Ztrunc (rnd32 (IZR d * t_factor s))) in *.
  rewrite (Hk (t_add s)) by lia. rewrite (Hk (t_min s)) by lia. rewrite (Hk x) by lia. apply Hk. lia.
Qed.

(** C28.  For all settings (after the normalisation every search applies), base durations and result types wide enough for the
    result: the adjusted transfer time is never shorter than the base duration, the minimum plus the additional time, or the
    adjusted time of a shorter base duration; and default settings leave durations unchanged. *)
Theorem C28_adjusted_transfer_time : forall cast mx s0 d,
  keeps cast mx -> 0 <= d <= 16777216 ->
  let s := init_tts s0 in
  intended s d <= mx ->
  let a := adjusted_transfer_time cast s d in
  d <= a /\ Z.max (t_min s0) 0 + Z.max (t_add s0) 0 <= a /\
  (forall d', 0 <= d' <= d -> adjusted_transfer_time cast s d' <= a) /\
  ((t_factor s0 <= 1)%R -> t_min s0 <= 0 -> t_add s0 <= 0 -> a = d).
Proof.
  intros cast mx s0 d Hk Hd s Hfit a. 
  assert (Hmin : 0 <= t_min s) by (unfold s, init_tts; cbn; lia).
  assert (Hadd : 0 <= t_add s) by (unfold s, init_tts; cbn; lia).
  assert (Hf : (1 <= t_factor s)%R) by (unfold s, init_tts; cbn; apply Rmax_r).
  assert (Ea : a = intended s d) by (unfold a; apply (cast_ok cast mx); auto).
  assert (Hbase : forall d, 0 <= d <= 16777216 -> d <= Ztrunc (rnd32 (IZR d * t_factor s))).
  { intros e He. apply trunc_ge; [|lia]. rewrite <- (rnd32_int e) at 1 by exact He. apply rnd32_le.
    assert (0 <= IZR e)%R by (apply IZR_le; lia). nra. }
  assert (Hdef : t_default s = true -> t_min s = 0 /\ t_add s = 0).
  { unfold s, init_tts; cbn. intros H. apply andb_true_iff in H. destruct H as [H H3]. apply andb_true_iff in H. destruct H as [_ H2].
    apply Z.eqb_eq in H2, H3. auto. }
  assert (Hs : t_min s = Z.max (t_min s0) 0 /\ t_add s = Z.max (t_add s0) 0) by (unfold s, init_tts; cbn; auto).
  destruct Hs as [Es1 Es2].
  rewrite Ea. specialize (Hbase d Hd) as Hb. unfold intended in *.
  split; [destruct (t_default s); lia|]. split.
  { destruct (t_default s); [destruct (Hdef eq_refl); lia|]. lia. }
  split.
  - intros d' Hd'.
    assert (Hmono : intended s d' <= intended s d).
    { unfold intended. destruct (t_default s); [lia|].
      assert (Ztrunc (rnd32 (IZR d' * t_factor s)) <= Ztrunc (rnd32 (IZR d * t_factor s))); [|lia].
      apply Ztrunc_le, rnd32_le. apply Rmult_le_compat_r; [lra|]. apply IZR_le. lia. }
    unfold intended in Hmono at 2. rewrite (cast_ok cast mx s d'); auto; lia.
  - intros H1 H2 H3. assert (t_default s = true); [|now rewrite H].
    unfold s, init_tts; cbn. rewrite Rmax_right by exact H1. destruct (Req_EM_T 1 1) as [_|n]; [|lra].
    rewrite !Z.max_r by lia. reflexivity.
Qed.
(** The hypotheses of C28 are met: e.g. 50 % slower walking, at least 4 minutes, 2 extra minutes, 10 minute transfer. *)
Lemma rnd32_15 : rnd32 (10 * (3 / 2)) = 15%R.
Proof. replace (10 * (3 / 2))%R with (IZR 15) by lra. apply rnd32_int. lia. Qed.
Example C28_nonvacuous :
  let s0 := mk_tts false 4 2 (3 / 2)%R in
  keeps to_u8 255 /\ adjusted_transfer_time to_u8 (init_tts s0) 10 = 17 /\ intended (init_tts s0) 10 <= 255.
Proof.
  assert (K : keeps to_u8 255) by (intros z Hz; unfold to_u8; apply Z.mod_small; lia).
  assert (E : intended (init_tts (mk_tts false 4 2 (3 / 2)%R)) 10 = 17).
  { unfold intended, init_tts. cbn [t_default t_min t_add t_factor]. rewrite Rmax_left by lra.
    destruct (Req_EM_T (3 / 2) 1) as [H|_]; [lra|]. cbn [andb]. rewrite rnd32_15. rewrite Ztrunc_IZR. reflexivity. }
  cbv zeta. split; [exact K|]. rewrite E. split; [|lia]. rewrite <- E. apply (cast_ok to_u8 255); auto.
  - cbn. lia.
  - cbn. lia.
  - cbn. apply Rmax_r.
  - lia.
  - rewrite E. lia.
Qed.

(** "Never shorter" fails for transfers at a stop: their durations are uint8_t counts (raptor.h:702-705), so the result is
    reduced modulo 256.  With 250 additional minutes a 10 minute transfer becomes 4 minutes. *)
Theorem C28_stop_transfer_truncated_refuted :
  exists s0 d, 0 <= d <= 255 /\ t_add s0 <= 32767 /\ adjusted_transfer_time to_u8 (init_tts s0) d < d.
Proof.
  exists (mk_tts false 0 250 1%R), 10. split; [lia|]. split; [cbn; lia|].
  unfold adjusted_transfer_time, init_tts. cbn [t_default t_min t_add t_factor]. rewrite Rmax_left by lra.
  change (Z.max 250 0 =? 0) with false. rewrite andb_false_r. change (Z.max 250 0) with 250. change (Z.max 0 0) with 0.
  rewrite rnd32_int by lia. rewrite Rmult_1_r, rnd32_int by lia. rewrite Ztrunc_IZR. vm_compute. reflexivity.
Qed.
(** Equality of settings does not imply equal behaviour: any two non-default settings compare equal, and with it queries that
    differ only in them. *)
Theorem C28_settings_equality_refuted :
  exists a b d, tts_eq a b = true /\ adjusted_transfer_time (fun z => z) a d <> adjusted_transfer_time (fun z => z) b d.
Proof.
  exists (mk_tts false 0 5 1%R), (mk_tts false 0 10 1%R), 0. split; [reflexivity|].
  unfold adjusted_transfer_time; cbn [t_default t_min t_add t_factor].
  rewrite (rnd32_int 0) by lia. rewrite Rmult_0_l. change 0%R with (IZR 0). rewrite rnd32_int by lia. rewrite Ztrunc_IZR. vm_compute. discriminate.
Qed.

Print Assumptions C26_via_stops.
Print Assumptions C26_sanitize_twice.
Print Assumptions C26_sanitized_query.
Print Assumptions C27_flip_twice.
Print Assumptions C27_flip_exchanges_ends.
Print Assumptions C27_flip_of_sanitized.
Print Assumptions C28_adjusted_transfer_time.
Print Assumptions C28_stop_transfer_truncated_refuted.
Print Assumptions C28_settings_equality_refuted.
