(** Proofs about grouping vehicles into routes and the array layout. *)
From Coq Require Import List ZArith Lia Bool Arith Permutation.
From Verif Require Import Base Time_Model Raptor_Model Routes_Model.
Import ListNotations.
Local Open Scope Z_scope.

(** ** Binary search *)
Lemma div2_lt n : (0 < n -> Nat.div2 n < n)%nat.
Proof. intros. apply Nat.lt_div2. lia. Qed.

Lemma lower_bound_loop_spec {A} (p : A -> bool) (d : A) (l : list A) fuel :
  (forall i j, (i <= j < length l)%nat -> p (nth j l d) = true -> p (nth i l d) = true) ->
  forall first count, (count < fuel)%nat -> (first + count <= length l)%nat ->
    (forall i, (i < first)%nat -> p (nth i l d) = true) ->
    (forall i, (first + count <= i < length l)%nat -> p (nth i l d) = false) ->
    let x := lower_bound_loop fuel p d l first count in
    (x <= length l)%nat /\ (forall i, (i < x)%nat -> p (nth i l d) = true) /\
    (forall i, (x <= i < length l)%nat -> p (nth i l d) = false).
Proof.
  intros Hpart. induction fuel as [|fuel IH]; intros first count Hc Hl Hlo Hhi; [lia|].
  cbn [lower_bound_loop]. destruct count as [|count'].
  - rewrite Nat.add_0_r in *. auto.
  - set (count := S count') in *. set (step := Nat.div2 count).
    assert (Hs : (step < count)%nat) by (apply div2_lt; lia).
    cbv zeta.
    destruct (p (nth (first + step) l d)) eqn:E.
    + apply IH; try lia.
      * intros i Hi. apply (Hpart i (first + step)%nat); auto; lia.
      * intros i Hi. apply Hhi. lia.
    + apply IH; try lia; auto.
      intros i Hi. destruct (p (nth i l d)) eqn:Ei; auto.
      rewrite (Hpart (first + step)%nat i) in E; auto; lia.
Qed.

Lemma lower_bound_spec {A} (p : A -> bool) (d : A) (l : list A) :
  (forall i j, (i <= j < length l)%nat -> p (nth j l d) = true -> p (nth i l d) = true) ->
  let x := lower_bound p d l in
  (x <= length l)%nat /\ (forall i, (i < x)%nat -> p (nth i l d) = true) /\
  (forall i, (x <= i < length l)%nat -> p (nth i l d) = false).
Proof. intros H. apply lower_bound_loop_spec; auto; intros; lia. Qed.

Lemma lower_bound_loop_le {A} (p : A -> bool) (d : A) (l : list A) fuel :
  forall first count, (lower_bound_loop fuel p d l first count <= first + count)%nat.
Proof.
  induction fuel as [|fuel IH]; intros first count; cbn [lower_bound_loop]; [lia|].
  destruct count as [|count']; [lia|]. set (count := S count').
  assert (Hs : (Nat.div2 count < count)%nat) by (apply div2_lt; lia). cbv zeta.
  destruct (p _); etransitivity; try apply IH; lia.
Qed.
Lemma lower_bound_le {A} (p : A -> bool) (d : A) (l : list A) : (lower_bound p d l <= length l)%nat.
Proof. unfold lower_bound. etransitivity; [apply lower_bound_loop_le|]. lia. Qed.

(** ** Column order *)
Definition col_le (n : nat) (a b : service) : Prop := forall c, (c < n)%nat -> time_mod a c <= time_mod b c.
Definition cols_sorted (n : nat) (r : list service) : Prop :=
  forall i j a b, (i <= j)%nat -> nth_error r i = Some a -> nth_error r j = Some b -> col_le n a b.

Lemma col_le_refl n a : col_le n a a.
Proof. intros c _. lia. Qed.
Lemma col_le_trans n a b c : col_le n a b -> col_le n b c -> col_le n a c.
Proof. intros H1 H2 x Hx. specialize (H1 x Hx). specialize (H2 x Hx). lia. Qed.

Lemma nth_error_insert_at {A} (l : list A) n x i :
  (n <= length l)%nat ->
  nth_error (insert_at l n x) i =
    if Nat.ltb i n then nth_error l i else if Nat.eqb i n then Some x else nth_error l (i - 1).
Proof.
  intros Hn. unfold insert_at.
  destruct (Nat.ltb_spec i n).
  - rewrite nth_error_app1 by (rewrite firstn_length; lia).
    rewrite <- (firstn_skipn n l) at 2. rewrite nth_error_app1; auto. rewrite firstn_length; lia.
  - rewrite nth_error_app2 by (rewrite firstn_length; lia).
    rewrite firstn_length, Nat.min_l by lia.
    destruct (Nat.eqb_spec i n).
    + subst. rewrite Nat.sub_diag. reflexivity.
    + replace (i - n)%nat with (S (i - n - 1)) by lia. simpl.
      rewrite <- (firstn_skipn n l) at 2. rewrite nth_error_app2 by (rewrite firstn_length; lia).
      rewrite firstn_length, Nat.min_l by lia. f_equal. lia.
Qed.

Lemma insert_at_permutation {A} (l : list A) n x : Permutation (insert_at l n x) (x :: l).
Proof.
  unfold insert_at. rewrite <- (firstn_skipn n l) at 3. symmetry. apply Permutation_middle.
Qed.

Lemma cols_sorted_insert n r i s :
  cols_sorted n r -> (i <= length r)%nat ->
  (forall a, (0 < i)%nat -> nth_error r (i - 1) = Some a -> col_le n a s) ->
  (forall b, nth_error r i = Some b -> col_le n s b) ->
  cols_sorted n (insert_at r i s).
Proof.
  intros Hs Hi Hlo Hhi x y a b Hxy Ha Hb.
  rewrite nth_error_insert_at in Ha, Hb by auto.
  assert (Hlo' : forall z q, (z < i)%nat -> nth_error r z = Some q -> col_le n q s).
  { intros z q Hz Hq. assert ((i - 1 < length r)%nat) by lia.
    destruct (nth_error r (i - 1)) as [q'|] eqn:E; [|apply nth_error_None in E; lia].
    eapply col_le_trans; [apply (Hs z (i - 1)%nat q q'); auto; lia|]. apply (Hlo q'); auto; lia. }
  assert (Hhi' : forall z q, (i <= z)%nat -> nth_error r z = Some q -> col_le n s q).
  { intros z q Hz Hq. assert ((z < length r)%nat) by (apply nth_error_Some; congruence).
    destruct (nth_error r i) as [q'|] eqn:E; [|apply nth_error_None in E; lia].
    eapply col_le_trans; [apply (Hhi q'); auto|]. apply (Hs i z); auto. }
  destruct (Nat.ltb_spec x i); destruct (Nat.ltb_spec y i).
  - eapply Hs; [|exact Ha|exact Hb]. lia.
  - destruct (Nat.eqb_spec y i).
    + injection Hb as <-. eapply Hlo'; [|exact Ha]; lia.
    + eapply Hs; [|exact Ha|exact Hb]. lia.
  - lia.
  - destruct (Nat.eqb_spec x i); destruct (Nat.eqb_spec y i).
    + injection Ha as <-. injection Hb as <-. apply col_le_refl.
    + injection Ha as <-. eapply Hhi'; [|exact Hb]; lia.
    + lia.
    + eapply Hs; [|exact Ha|exact Hb]. lia.
Qed.

Lemma get_index_sound n rs s i :
  get_index rs s = Some i -> length (sv_times s) = n ->
  (i <= length rs)%nat /\
  (forall a, (0 < i)%nat -> nth_error rs (i - 1) = Some a -> col_le n a s) /\
  (forall b, nth_error rs i = Some b -> col_le n s b).
Proof.
  unfold get_index. set (ix := lower_bound _ _ _). intros H Hn.
  destruct (existsb _ _) eqn:E; [discriminate|]. injection H as <-.
  assert (Hbad : forall c, (c < n)%nat ->
     (Nat.ltb 0 ix && (time_mod s c <? time_mod (nth (ix - 1) rs no_service) c)) = false /\
     (Nat.ltb ix (length rs) && (time_mod (nth ix rs no_service) c <? time_mod s c)) = false).
  { intros c Hc. apply orb_false_iff.
    destruct (_ || _) eqn:E'; auto. rewrite <- E. symmetry. apply existsb_exists.
    exists c. split; auto. apply in_seq. lia. }
  split; [apply lower_bound_le|]. split.
  - intros a Hi Ha c Hc. destruct (Hbad c Hc) as [H1 _].
    rewrite (nth_error_nth _ _ _ Ha) in H1.
    destruct (Nat.ltb_spec 0 ix); [|lia]. simpl in H1. apply Z.ltb_ge in H1. exact H1.
  - intros b Hb c Hc. destruct (Hbad c Hc) as [_ H1].
    rewrite (nth_error_nth _ _ _ Hb) in H1.
    assert (ix < length rs)%nat by (apply nth_error_Some; congruence).
    destruct (Nat.ltb_spec ix (length rs)); [|lia]. simpl in H1. apply Z.ltb_ge in H1. exact H1.
Qed.

(** When a vehicle is rejected, and no vehicle of the route has the same first departure minute, there is no
    position at which it could have been inserted. *)
Lemma get_index_complete n rs s i :
  get_index rs s = None -> length (sv_times s) = n -> (0 < n)%nat -> cols_sorted n rs ->
  (forall a, In a rs -> time_mod a 0 <> time_mod s 0) ->
  (i <= length rs)%nat -> ~ cols_sorted n (insert_at rs i s).
Proof.
  intros H Hn Hn0 Hs Hne Hi Hs'. unfold get_index in H. set (p := fun a : service => time_mod a 0 <? time_mod s 0) in H.
  set (ix := lower_bound p no_service rs) in H.
  destruct (existsb _ _) eqn:E; [|discriminate]. clear H.
  assert (Hpart : forall x y, (x <= y < length rs)%nat -> p (nth y rs no_service) = true -> p (nth x rs no_service) = true).
  { intros x y Hxy Hy. unfold p in *. apply Z.ltb_lt in Hy. apply Z.ltb_lt.
    assert (col_le n (nth x rs no_service) (nth y rs no_service))
      by (apply (Hs x y); try lia; apply nth_error_nth'; lia).
    specialize (H 0%nat). lia. }
  destruct (lower_bound_spec p no_service rs Hpart) as (Hle & Hlo & Hhi). fold ix in Hle, Hlo, Hhi.
  assert (Hix : i = ix).
  { destruct (Nat.lt_trichotomy i ix) as [Hlt|[?|Hgt]]; auto; exfalso.
    - assert (Hp := Hlo i Hlt). unfold p in Hp. apply Z.ltb_lt in Hp.
      assert (col_le n s (nth i rs no_service)).
      { apply (Hs' i (S i)); [lia| |]; rewrite nth_error_insert_at by auto.
        - rewrite Nat.ltb_irrefl, Nat.eqb_refl. reflexivity.
        - destruct (Nat.ltb_spec (S i) i); [lia|]. destruct (Nat.eqb_spec (S i) i); [lia|].
          simpl. rewrite Nat.sub_0_r. apply nth_error_nth'. lia. }
      specialize (H 0%nat). lia.
    - assert (Hp : p (nth ix rs no_service) = false) by (apply Hhi; lia).
      unfold p in Hp. apply Z.ltb_ge in Hp.
      assert (Hin : In (nth ix rs no_service) rs) by (apply nth_In; lia).
      specialize (Hne _ Hin).
      assert (col_le n (nth ix rs no_service) s).
      { apply (Hs' ix i); [lia| |]; rewrite nth_error_insert_at by auto.
        - destruct (Nat.ltb_spec ix i); [|lia]. apply nth_error_nth'. lia.
        - rewrite Nat.ltb_irrefl, Nat.eqb_refl. reflexivity. }
      specialize (H 0%nat). lia. }
  subst i. apply existsb_exists in E. destruct E as (c & Hc & Hb). apply in_seq in Hc.
  apply orb_true_iff in Hb. destruct Hb as [Hb|Hb]; apply andb_true_iff in Hb; destruct Hb as [H1 H2];
    apply Nat.ltb_lt in H1; apply Z.ltb_lt in H2.
  - assert (col_le n (nth (ix - 1) rs no_service) s).
    { apply (Hs' (ix - 1)%nat ix); [lia| |]; rewrite nth_error_insert_at by auto.
      - destruct (Nat.ltb_spec (ix - 1) ix); [|lia]. apply nth_error_nth'. lia.
      - rewrite Nat.ltb_irrefl, Nat.eqb_refl. reflexivity. }
    specialize (H c). lia.
  - assert (col_le n s (nth ix rs no_service)).
    { apply (Hs' ix (S ix)); [lia| |]; rewrite nth_error_insert_at by auto.
      - rewrite Nat.ltb_irrefl, Nat.eqb_refl. reflexivity.
      - destruct (Nat.ltb_spec (S ix) ix); [lia|]. destruct (Nat.eqb_spec (S ix) ix); [lia|].
        simpl. rewrite Nat.sub_0_r. apply nth_error_nth'. lia. }
    specialize (H c). lia.
Qed.

Lemma insert_service_permutation rs s : Permutation (concat (insert_service rs s)) (s :: concat rs).
Proof.
  induction rs as [|r rs IH]; simpl; auto.
  destruct (get_index r s) as [i|]; simpl.
  - rewrite insert_at_permutation. reflexivity.
  - rewrite IH. symmetry. apply Permutation_middle.
Qed.

Lemma insert_service_sorted n rs s :
  length (sv_times s) = n ->
  (forall r, In r rs -> r <> [] /\ cols_sorted n r) ->
  forall r, In r (insert_service rs s) -> r <> [] /\ cols_sorted n r.
Proof.
  intros Hn. induction rs as [|r0 rs IH]; intros Hrs r Hr; simpl in Hr.
  - destruct Hr as [<-|[]]. split; [discriminate|].
    intros i j a b Hij Ha Hb. destruct i, j; simpl in *; try (destruct i; discriminate); try (destruct j; discriminate).
    injection Ha as <-. injection Hb as <-. apply col_le_refl.
  - destruct (get_index r0 s) as [i|] eqn:E; destruct Hr as [<-|Hr].
    + destruct (Hrs r0) as [_ Hs]; [now left|]. destruct (get_index_sound n _ _ _ E Hn) as (H1 & H2 & H3).
      split; [|apply cols_sorted_insert; auto].
      unfold insert_at. intros Hnil. apply app_eq_nil in Hnil. destruct Hnil; discriminate.
    + apply Hrs. now right.
    + apply Hrs. now left.
    + apply IH; auto. intros; apply Hrs. now right.
Qed.

Definition valid_service (k : route_key) (s : service) : Prop :=
  (2 <= length (rk_stops k))%nat /\ length (sv_times s) = (2 * (length (rk_stops k) - 1))%nat /\
  forall t, In t (sv_times s) -> 0 <= t.

Definition services_for (k : route_key) (m : route_map) : list service :=
  flat_map (fun kr => if route_key_eq_dec k (fst kr) then concat (snd kr) else []) m.

Lemma services_for_notin k m : ~ In k (map fst m) -> services_for k m = [].
Proof.
  induction m as [|[k' rs] m IH]; simpl; intros H; auto.
  destruct (route_key_eq_dec k k'); [subst; tauto|]. apply IH. tauto.
Qed.

Record map_ok (m : route_map) : Prop := mk_map_ok {
  mo_nodup : NoDup (map fst m);
  mo_sorted : forall k rs r, In (k, rs) m -> In r rs ->
              r <> [] /\ cols_sorted (2 * (length (rk_stops k) - 1)) r }.

Lemma add_expanded_trip_keys m k s k' :
  In k' (map fst (add_expanded_trip m k s)) <-> k' = k \/ In k' (map fst m).
Proof.
  induction m as [|[k0 rs] m IH]; simpl.
  - intuition congruence.
  - destruct (route_key_eq_dec k k0); simpl.
    + subst. intuition congruence.
    + rewrite IH. intuition congruence.
Qed.

Lemma add_expanded_trip_ok m k s : map_ok m -> valid_service k s -> map_ok (add_expanded_trip m k s).
Proof.
  intros [Hnd Hso] (Hk & Hl & _). induction m as [|[k0 rs] m IH]; simpl.
  - split; simpl; [constructor; auto; constructor|].
    intros k1 rs1 r [[= <- <-]|[]] [<-|[]]. 
    apply (insert_service_sorted _ [] s Hl); [simpl; tauto|now left].
  - inversion Hnd as [|x xs Hni Hnd']; subst.
    destruct (route_key_eq_dec k k0) as [->|Hne].
    + split; simpl; auto. intros k1 rs1 r [Heq|Hin] Hr.
      * injection Heq as <- <-. eapply insert_service_sorted; eauto.
        intros r' Hr'. apply (Hso k0 rs); auto. now left.
      * apply (Hso k1 rs1); auto. now right.
    + destruct IH as [IH1 IH2]; auto.
      { intros; apply (Hso k1 rs0); auto. now right. }
      split; simpl.
      * constructor; auto. intros Hin. apply add_expanded_trip_keys in Hin. intuition congruence.
      * intros k1 rs1 r [Heq|Hin] Hr.
        -- injection Heq as <- <-. apply (Hso k0 rs); auto. now left.
        -- eapply IH2; eauto.
Qed.

Lemma add_expanded_trip_services m k s k' :
  NoDup (map fst m) ->
  Permutation (services_for k' (add_expanded_trip m k s))
              ((if route_key_eq_dec k' k then [s] else []) ++ services_for k' m).
Proof.
  induction m as [|[k0 rs] m IH]; intros Hnd; simpl.
  - destruct (route_key_eq_dec k' k); reflexivity.
  - inversion Hnd as [|x xs Hni Hnd']; subst.
    destruct (route_key_eq_dec k k0) as [->|Hne]; simpl.
    + destruct (route_key_eq_dec k' k0) as [->|Hne']; simpl.
      * rewrite insert_service_permutation. reflexivity.
      * reflexivity.
    + rewrite (IH Hnd').
      destruct (route_key_eq_dec k' k) as [->|Hne'], (route_key_eq_dec k k0); subst; try tauto; simpl; auto.
Qed.

Lemma add_all_ok ins :
  (forall k s, In (k, s) ins -> valid_service k s) ->
  map_ok (add_all ins) /\
  forall k, Permutation (services_for k (add_all ins))
                        (map snd (filter (fun x => if route_key_eq_dec k (fst x) then true else false) ins)).
Proof.
  unfold add_all. intros Hv.
  enough (H : forall m pre, map_ok m ->
            (forall k, Permutation (services_for k m) (map snd (filter (fun x => if route_key_eq_dec k (fst x) then true else false) pre))) ->
            let m' := fold_left (fun m ks => add_expanded_trip m (fst ks) (snd ks)) ins m in
            map_ok m' /\ forall k, Permutation (services_for k m') (map snd (filter (fun x => if route_key_eq_dec k (fst x) then true else false) (pre ++ ins)))).
  { apply (H [] []); auto. split; simpl; [constructor|tauto]. }
  induction ins as [|[k s] ins IH]; intros m pre Hm Hp; simpl.
  - rewrite app_nil_r. auto.
  - destruct (IH (fun k s H => Hv k s (or_intror H)) (add_expanded_trip m k s) (pre ++ [(k, s)])) as [H1 H2].
    + apply add_expanded_trip_ok; auto. apply Hv. now left.
    + intros k'. rewrite add_expanded_trip_services by apply Hm.
      rewrite filter_app, map_app. simpl. destruct (route_key_eq_dec k' k); simpl.
      * rewrite Hp. apply Permutation_cons_append.
      * rewrite app_nil_r. apply Hp.
    + split; auto. intros k'. specialize (H2 k'). rewrite <- app_assoc in H2. exact H2.
Qed.

(** ** Array layout *)
Lemma nth_flat_map_blocks {A B} (f : A -> list B) (l : list A) (n : nat) d da i j :
  (forall x, In x l -> length (f x) = n) -> (i < length l)%nat -> (j < n)%nat ->
  nth (i * n + j) (flat_map f l) d = nth j (f (nth i l da)) d.
Proof.
  revert i. induction l as [|x l IH]; intros i Hl Hi Hj; simpl in *; [lia|].
  destruct i as [|i].
  - simpl. rewrite app_nth1; auto. rewrite Hl; auto.
  - rewrite app_nth2; rewrite Hl by auto; [|lia].
    replace (S i * n + j - n)%nat with (i * n + j)%nat by lia. apply IH; auto. lia.
Qed.

Lemma flat_map_blocks_length {A B} (f : A -> list B) (l : list A) (n : nat) :
  (forall x, In x l -> length (f x) = n) -> length (flat_map f l) = (length l * n)%nat.
Proof. induction l; simpl; intros H; auto. rewrite app_length, IHl, H; auto. Qed.

Lemma route_times_length n svs : length (route_times n svs) = ((n - 1) * (2 * length svs))%nat.
Proof.
  unfold route_times. rewrite (flat_map_blocks_length _ _ (2 * length svs)).
  - now rewrite seq_length.
  - intros. rewrite app_length, !map_length. lia.
Qed.

(** Event [e] at stop [s] exists. *)
Definition ev_exists (n_stops s : nat) (e : ev_type) : Prop :=
  match e with kArr => (0 < s < n_stops)%nat | kDep => (s + 1 < n_stops)%nat end.
Definition time_index (s : nat) (e : ev_type) : nat := match e with kArr => (2 * s - 1)%nat | kDep => (2 * s)%nat end.

Lemma nth_map_in {A B} (f : A -> B) (l : list A) j d d' : (j < length l)%nat -> nth j (map f l) d = f (nth j l d').
Proof. revert j; induction l; intros [|j] H; simpl in *; try lia; auto. apply IHl. lia. Qed.

Lemma route_times_nth n svs s e j d :
  ev_exists n s e -> (j < length svs)%nat ->
  nth (length svs * time_index s e + j) (route_times n svs) d
  = delta_of_minutes (nth (time_index s e) (sv_times (nth j svs no_service)) 0).
Proof.
  intros He Hj. unfold route_times.
  assert (Hb : forall x, In x (seq 0 (n - 1)) ->
     length (map (fun s => delta_of_minutes (nth (x * 2) (sv_times s) 0)) svs
             ++ map (fun s => delta_of_minutes (nth ((x + 1) * 2 - 1) (sv_times s) 0)) svs) = (2 * length svs)%nat)
    by (intros; rewrite app_length, !map_length; lia).
  destruct e; simpl in He; unfold time_index.
  - replace (length svs * (2 * s - 1) + j)%nat with ((s - 1) * (2 * length svs) + (length svs + j))%nat by nia.
    rewrite (nth_flat_map_blocks _ _ (2 * length svs) _ 0%nat) by (rewrite ?seq_length; auto; lia).
    rewrite seq_nth by lia. rewrite app_nth2 by (rewrite map_length; lia). rewrite map_length.
    replace (length svs + j - length svs)%nat with j by lia.
    rewrite (nth_map_in _ svs j d no_service) by lia. do 2 f_equal. lia.
  - replace (length svs * (2 * s) + j)%nat with (s * (2 * length svs) + j)%nat by nia.
    rewrite (nth_flat_map_blocks _ _ (2 * length svs) _ 0%nat) by (rewrite ?seq_length; auto; lia).
    rewrite seq_nth by lia. rewrite app_nth1 by (rewrite map_length; lia).
    rewrite (nth_map_in _ svs j d no_service) by lia. do 2 f_equal. lia.
Qed.

(** What the arrays contain for the [r]-th written route. *)
Record route_at (a : tt_arrays) (r : nat) (k : route_key) (svs : list service) (t0 x0 : nat) : Prop := mk_ra {
  ra_stops : nth_error (a_route_stops a) r = Some (rk_stops k);
  ra_clasz : nth_error (a_route_clasz a) r = Some (rk_clasz k);
  ra_flags : nth_error (a_flags a) r = Some (map flag_bits (rk_flags k));
  ra_sections : nth_error (a_flag_sections a) r = Some (map flag_sections (rk_flags k));
  ra_range : nth_error (a_transport_ranges a) r = Some (t0, t0 + length svs)%nat;
  ra_times : nth_error (a_stop_time_ranges a) r = Some (x0, x0 + length (route_times (length (rk_stops k)) svs))%nat;
  ra_days : forall j s, nth_error svs j = Some s -> nth_error (a_transport_days a) (t0 + j) = Some (sv_days s);
  ra_route : forall j, (j < length svs)%nat -> nth_error (a_transport_route a) (t0 + j) = Some r;
  ra_data : forall i, (i < length (route_times (length (rk_stops k)) svs))%nat ->
     nth_error (a_stop_times a) (x0 + i) = nth_error (route_times (length (rk_stops k)) svs) i }.

Record arrays_ok (a : tt_arrays) (rs : list (route_key * list service)) : Prop := mk_ao {
  ao_n1 : length (a_route_stops a) = length rs;
  ao_n2 : length (a_route_clasz a) = length rs;
  ao_n3 : length (a_flags a) = length rs;
  ao_n4 : length (a_flag_sections a) = length rs;
  ao_n5 : length (a_transport_ranges a) = length rs;
  ao_n6 : length (a_stop_time_ranges a) = length rs;
  ao_n7 : length (a_transport_route a) = length (a_transport_days a);
  ao_at : forall r k svs, nth_error rs r = Some (k, svs) -> exists t0 x0,
     route_at a r k svs t0 x0 /\ (t0 + length svs <= length (a_transport_days a))%nat /\
     (x0 + length (route_times (length (rk_stops k)) svs) <= length (a_stop_times a))%nat }.

Lemma nth_error_app_old {A} (l l' : list A) i x : nth_error l i = Some x -> nth_error (l ++ l') i = Some x.
Proof. intros H. rewrite nth_error_app1; auto. apply nth_error_Some. congruence. Qed.
Lemma nth_error_app_new {A} (l : list A) x i : i = length l -> nth_error (l ++ [x]) i = Some x.
Proof. intros ->. rewrite nth_error_app2, Nat.sub_diag; auto. Qed.

Lemma write_route_ok a rs k svs : arrays_ok a rs -> arrays_ok (write_route a k svs) (rs ++ [(k, svs)]).
Proof.
  intros [H1 H2 H3 H4 H5 H6 H7 Hat]. unfold write_route.
  split; cbn [a_route_stops a_route_clasz a_flags a_flag_sections a_transport_ranges a_stop_time_ranges
              a_transport_route a_transport_days a_stop_times]; rewrite ?app_length; simpl; rewrite ?map_length; try lia.
  intros r k' svs' Hr.
  destruct (Nat.eq_dec r (length rs)) as [->|Hne].
  - rewrite nth_error_app_new in Hr by auto. injection Hr as <- <-.
    exists (length (a_transport_days a)), (length (a_stop_times a)). split; [|split; lia].
    split; simpl; try (apply nth_error_app_new; lia).
    + intros j s Hj. rewrite nth_error_app2 by lia.
      replace (length (a_transport_days a) + j - length (a_transport_days a))%nat with j by lia.
      now apply map_nth_error.
    + intros j Hj. rewrite nth_error_app2 by lia.
      replace (length (a_transport_days a) + j - length (a_transport_route a))%nat with j by lia.
      destruct (nth_error svs j) as [s|] eqn:E; [|apply nth_error_None in E; lia].
      rewrite <- H1. exact (map_nth_error (fun _ => length (a_route_stops a)) _ _ E).
    + intros i Hi. rewrite nth_error_app2 by lia. f_equal. lia.
  - assert (Hr' : nth_error rs r = Some (k', svs')).
    { rewrite nth_error_app1 in Hr; auto.
      assert (r < length (rs ++ [(k, svs)]))%nat by (apply nth_error_Some; congruence).
      rewrite app_length in H. simpl in H. lia. }
    destruct (Hat _ _ _ Hr') as (t0 & x0 & [G1 G2 G3 G4 G5 G6 G7 G8 G9] & Ht & Hx).
    exists t0, x0. split; [|split; lia].
    split; simpl; try (apply nth_error_app_old; assumption).
    + intros j s Hj. apply nth_error_app_old; auto.
    + intros j Hj. apply nth_error_app_old; auto.
    + intros i Hi. rewrite nth_error_app1 by lia. auto.
Qed.

Lemma write_routes_ok rs : arrays_ok (write_routes no_arrays rs) rs.
Proof.
  unfold write_routes.
  enough (H : forall a pre, arrays_ok a pre ->
     arrays_ok (fold_left (fun a kr => write_route a (fst kr) (snd kr)) rs a) (pre ++ rs)).
  { apply (H no_arrays []). split; simpl; auto. intros [|r]; simpl; discriminate. }
  induction rs as [|[k svs] rs IH]; intros a pre Ha; simpl.
  - now rewrite app_nil_r.
  - replace (pre ++ (k, svs) :: rs) with ((pre ++ [(k, svs)]) ++ rs) by now rewrite <- app_assoc.
    apply IH. now apply write_route_ok.
Qed.

Lemma ev_index_time_index n s e : ev_exists n s e -> ev_index s e = Z.of_nat (time_index s e).
Proof. unfold ev_exists, ev_index, time_index. destruct e; lia. Qed.

Lemma time_index_lt n s e : ev_exists n s e -> (time_index s e < 2 * (n - 1))%nat.
Proof. unfold ev_exists, time_index. destruct e; lia. Qed.

Lemma event_mam_route_at a r k svs t0 x0 s e j sv :
  route_at a r k svs t0 x0 ->
  (x0 + length (route_times (length (rk_stops k)) svs) <= length (a_stop_times a))%nat ->
  Z.of_nat (length (a_stop_times a)) < 4294967296 ->
  ev_exists (length (rk_stops k)) s e -> nth_error svs j = Some sv ->
  event_mam a r (t0 + j) s e = delta_of_minutes (nth (time_index s e) (sv_times sv) 0).
Proof.
  intros [G1 G2 G3 G4 G5 G6 G7 G8 G9] Hx Hlim He Hj. unfold event_mam.
  rewrite (nth_error_nth _ _ _ G5), (nth_error_nth _ _ _ G6). cbn [fst snd].
  assert (Hjl : (j < length svs)%nat) by (apply nth_error_Some; congruence).
  assert (Hti := time_index_lt _ _ _ He).
  rewrite (ev_index_time_index _ _ _ He).
  replace (t0 + length svs - t0)%nat with (length svs) by lia.
  replace (t0 + j - t0)%nat with j by lia.
  rewrite route_times_length in *.
  assert (Hb : (length svs * time_index s e + j < (length (rk_stops k) - 1) * (2 * length svs))%nat) by nia.
  unfold to_u32. rewrite Z.mod_small by nia.
  replace (Z.to_nat _) with (x0 + (length svs * time_index s e + j))%nat by nia.
  assert (Hnth := G9 (length svs * time_index s e + j)%nat ltac:(auto)).
  assert (Hlt : (length svs * time_index s e + j < length (route_times (length (rk_stops k)) svs))%nat)
    by now rewrite route_times_length.
  rewrite (nth_error_nth' _ (mk_delta 0 0) Hlt) in Hnth.
  rewrite (nth_error_nth _ _ _ Hnth), route_times_nth by auto.
  now rewrite (nth_error_nth _ _ _ Hj).
Qed.

Lemma skipn_firstn_eq {A} (l : list A) n m (f : nat -> A) :
  (forall j, (j < m)%nat -> nth_error l (n + j) = Some (f j)) -> firstn m (skipn n l) = map f (seq 0 m).
Proof.
  revert n f. induction m as [|m IH]; intros n f H; [reflexivity|].
  assert (H0 := H 0%nat ltac:(lia)). rewrite Nat.add_0_r in H0.
  assert (Hs : skipn n l = f 0%nat :: skipn (S n) l).
  { revert H0. generalize (f 0%nat). clear. intros y. revert l.
    induction n as [|n IHn]; intros [|x l] H; try discriminate H.
    - simpl in *. congruence.
    - exact (IHn l H). }
  rewrite Hs. cbn [firstn seq map]. f_equal. rewrite <- seq_shift, map_map. apply (IH (S n) (fun j => f (S j))).
  intros j Hj. rewrite <- (H (S j)) by lia. f_equal. lia.
Qed.

Lemma event_times_at_stop_route_at a r k svs t0 x0 s e :
  route_at a r k svs t0 x0 ->
  (x0 + length (route_times (length (rk_stops k)) svs) <= length (a_stop_times a))%nat ->
  Z.of_nat (length (a_stop_times a)) < 4294967296 ->
  ev_exists (length (rk_stops k)) s e ->
  event_times_at_stop a r s e = map (fun sv => delta_of_minutes (nth (time_index s e) (sv_times sv) 0)) svs.
Proof.
  intros [G1 G2 G3 G4 G5 G6 G7 G8 G9] Hx Hlim He. unfold event_times_at_stop.
  rewrite (nth_error_nth _ _ _ G5), (nth_error_nth _ _ _ G6). cbn [fst snd].
  assert (Hti := time_index_lt _ _ _ He).
  rewrite (ev_index_time_index _ _ _ He).
  replace (t0 + length svs - t0)%nat with (length svs) by lia.
  rewrite route_times_length in *.
  destruct svs as [|sv0 svs0]; [reflexivity|]. set (svs := sv0 :: svs0) in *.
  assert (Hpos : (0 < length svs)%nat) by (unfold svs; simpl; lia).
  unfold to_u32. rewrite Z.mod_small by nia.
  replace (Z.to_nat _) with (x0 + length svs * time_index s e)%nat by nia.
  rewrite (skipn_firstn_eq _ _ _ (fun j => delta_of_minutes (nth (time_index s e) (sv_times (nth j svs no_service)) 0))).
  - clearbody svs. clear. rewrite <- (map_map (fun j => nth j svs no_service) (fun sv => delta_of_minutes (nth (time_index s e) (sv_times sv) 0))).
    f_equal. induction svs as [|x l IH]; simpl; auto. f_equal. rewrite <- seq_shift, map_map. exact IH.
  - intros j Hj. rewrite <- Nat.add_assoc.
    assert (Hb : (length svs * time_index s e + j < (length (rk_stops k) - 1) * (2 * length svs))%nat) by nia.
    rewrite G9 by auto.
    rewrite (nth_error_nth' _ (mk_delta 0 0)) by now rewrite route_times_length.
    now rewrite route_times_nth.
Qed.
