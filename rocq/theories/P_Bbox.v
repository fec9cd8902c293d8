(** C80: bounding boxes of routes and of their segments. *)
From Coq Require Import ZArith List Lia Bool Permutation.
From Verif Require Import Shapes_Model P_Shapes Bbox_Model.
Import ListNotations.
Local Open Scope Z_scope.

(** ** Specification *)
Definition inside (p : pt) (b : box) : Prop :=
  match b with
  | None => False
  | Some (x0, y0, x1, y1) => x0 <= fst p <= x1 /\ y0 <= snd p <= y1
  end.
(** [b] is the smallest box around the points in [A]. *)
Definition Hull (A : pt -> Prop) (b : box) : Prop :=
  (forall p, A p -> inside p b) /\
  (forall b', (forall p, A p -> inside p b') -> forall p, inside p b -> inside p b').

(** ** Boxes *)
Definition valid (b : box) : Prop :=
  match b with None => True | Some (x0, y0, x1, y1) => x0 <= x1 /\ y0 <= y1 end.
Definition VHull A b := valid b /\ Hull A b.

Lemma inside_extend : forall b p q, valid b -> 
  valid (extend b p) /\ inside p (extend b p) /\ (inside q b -> inside q (extend b p)) /\
  (forall b', (forall r, inside r b -> inside r b') -> inside p b' -> inside q (extend b p) -> inside q b').
Proof.
  intros [[[[x0 y0] x1] y1]|] [px py] [qx qy] V; cbn in *.
  - split; [lia|]. split; [lia|]. split; [lia|]. intros [[[[a0 b0] a1] b1]|] H K L.
    + pose proof (H (x0, y0)). pose proof (H (x1, y1)). cbn in *. lia.
    + exact K.
  - split; [lia|]. split; [lia|]. split; [tauto|]. intros [[[[a0 b0] a1] b1]|] H K L; cbn in *; lia.
Qed.

Lemma hull_extend : forall A b p, VHull A b -> VHull (fun q => A q \/ q = p) (extend b p).
Proof.
  intros A b p [V [H1 H2]]. split; [apply (inside_extend b p p V)|]. split.
  - intros q [K| ->].
    + destruct (inside_extend b p q V) as [_ [_ [Q _]]]. apply Q, H1, K.
    + destruct (inside_extend b p p V) as [_ [Q _]]. exact Q.
  - intros b' K q I. destruct (inside_extend b p q V) as [_ [_ [_ Q]]].
    apply Q; [|apply K; right; reflexivity|exact I].
    apply H2. intros r R. apply K. left. exact R.
Qed.

Lemma hull_ext : forall A B b, (forall p, A p <-> B p) -> VHull A b -> VHull B b.
Proof.
  intros A B b E [V [H1 H2]]. split; [exact V|]. split; [intros p K; apply H1, E, K|].
  intros b' K. apply H2. intros p I. apply K, E, I.
Qed.

Lemma hull_none : VHull (fun _ => False) None.
Proof. split; [exact I|]. split; [tauto|]. intros b' _ p H. elim H. Qed.

Lemma hull_fold : forall l A b, VHull A b -> VHull (fun q => A q \/ In q l) (fold_left extend l b).
Proof.
  induction l as [|x l IH]; intros A b H; cbn [fold_left].
  - eapply hull_ext; [|exact H]. cbn. tauto.
  - eapply hull_ext; [|apply IH; apply hull_extend; exact H]. cbn. intuition.
Qed.

Lemma hull_list : forall l, VHull (fun q => In q l) (make_box l).
Proof.
  intro l. eapply hull_ext; [|apply (hull_fold l _ None hull_none)]. cbn. tauto.
Qed.

Lemma hull_merge : forall A B b c, VHull A b -> VHull B c -> VHull (fun q => A q \/ B q) (merge b c).
Proof.
  intros A B b c HA [VC [C1 C2]]. destruct c as [[[[x0 y0] x1] y1]|]; cbn [merge].
  - assert (H : VHull (fun q => (A q \/ q = (x0, y0)) \/ q = (x1, y1)) (extend (extend b (x0, y0)) (x1, y1))).
    { apply hull_extend. apply hull_extend. exact HA. }
    destruct H as [V [H1 H2]]. split; [exact V|]. cbn in VC. split.
    + intros q [K|K]; [apply H1; auto|]. pose proof (H1 (x0, y0) ltac:(auto)) as K0. pose proof (H1 (x1, y1) ltac:(auto)) as K1.
      specialize (C1 q K). destruct (extend (extend b (x0, y0)) (x1, y1)) as [[[[a0 b0] a1] b1]|]; cbn in *; lia.
    + intros b' K. apply H2. intros q [[Q| ->]| ->].
      * apply K. auto.
      * apply (C2 b'); [intros; apply K; auto|cbn; lia].
      * apply (C2 b'); [intros; apply K; auto|cbn; lia].
  - eapply hull_ext; [|exact HA]. intro p. split; auto. intros [K|K]; auto. elim (C1 p K).
Qed.

Lemma hull_absorb : forall (A B : pt -> Prop) b, VHull A b -> (forall p, B p -> inside p b) -> VHull (fun q => A q \/ B q) b.
Proof.
  intros A B b [V [H1 H2]] K. split; [exact V|]. split; [intros p [Q|Q]; auto|].
  intros b' Q. apply H2. intros; apply Q; auto.
Qed.

Lemma contains_inside : forall b c p, contains_box b c = true -> inside p c -> inside p b.
Proof.
  intros [[[[a0 b0] a1] b1]|] [[[[x0 y0] x1] y1]|] p H I; cbn in *; try tauto; try discriminate.
  rewrite !andb_true_iff, !Z.leb_le in H. lia.
Qed.

(** ** Routes *)
Section Routes.
  Variable best_segment : pt -> list pt -> nat.
  Variable sqdist : pt -> pt -> Z.
  Hypothesis best_segment_in : forall p l, (2 <= length l)%nat -> (best_segment p l + 1 < length l)%nat.
  Variable shapes : list (shape pt).
  Variable loc : Z -> pt.
  Variable trips : list trip.
  Hypothesis trips_dist : forall x, In x trips -> t_dist x = [] \/ length (t_dist x) = length (t_stops x).

  (** The points of the shape of a trip between its stops [i] and [i + 1]. *)
  Definition between (tr : trip) (i : nat) : list pt :=
    get_shape best_segment sqdist shapes loc (0, 0) trips tr i (i + 2).

  Definition RoutePoint (sq : list Z) (runs : list (nat * trip)) (p : pt) : Prop :=
    In p (map loc sq) \/
    exists from tr i, In (from, tr) runs /\ (i + 1 < length (t_stops tr))%nat /\ In p (between tr i).

  Definition SegmentPoint (sq : list Z) (runs : list (nat * trip)) (k : nat) (p : pt) : Prop :=
    (exists s, (nth_error sq k = Some s \/ nth_error sq (k + 1) = Some s) /\ p = loc s) \/
    exists from tr i, In (from, tr) runs /\ (from + i)%nat = k /\ (i + 1 < length (t_stops tr))%nat /\ In p (between tr i).

  (** The stops of a trip are at the places of those of the route from [from] on. *)
  Definition on_route (sq : list Z) (x : nat * trip) : Prop :=
    In (snd x) trips /\ (1 <= length (t_stops (snd x)))%nat /\
    forall i, (i < length (t_stops (snd x)))%nat -> option_map loc (nth_error sq (fst x + i)) = option_map loc (nth_error (t_stops (snd x)) i).

  Lemma offsets_length : forall tr sh offs, In tr trips ->
    trip_offsets best_segment sqdist shapes loc (0, 0) trips tr = Some (sh, offs) ->
    length offs = length (t_stops tr).
  Proof.
    intros tr sh offs IN H. unfold trip_offsets in H. destruct (t_shape tr) as [s|] eqn:TS; [|discriminate].
    destruct (first_alike_ex trips s (t_stops tr) tr IN) as [tr0 FA].
    { unfold alike. rewrite TS, Nat.eqb_refl. destruct (list_eq_dec _ _ _); [reflexivity|congruence]. }
    rewrite (task_of_first _ _ _ _ FA) in H.
    destruct (nth_error shapes s) as [h|]; [|discriminate].
    assert (D0 : t_dist tr0 = [] \/ length (t_dist tr0) = length (t_stops tr)).
    { destruct FA as [pre [post [E1 [E2 _]]]].
      assert (E3 : t_stops tr0 = t_stops tr).
      { unfold alike in E2. destruct (t_shape tr0); [|discriminate]. apply andb_true_iff in E2.
        destruct E2 as [_ E2]. destruct (list_eq_dec _ _ _); [assumption|discriminate]. }
      rewrite <- E3. apply trips_dist. rewrite E1. apply in_or_app. right. left. reflexivity. }
    assert (OS : forall o, offsets_of best_segment sqdist (h_poly h) (h_dist h) (map loc (t_stops tr)) (t_dist tr0) (0, 0) = o ->
              o = [] \/ length o = length (t_stops tr)).
    { intros o <-. unfold offsets_of. rewrite map_length.
      destruct (Nat.ltb_spec (length (h_poly h)) (length (t_stops tr))); [left; reflexivity|].
      assert (BS : let o := get_offsets_by_stops best_segment sqdist (h_poly h) (map loc (t_stops tr)) (0, 0) in
                   o = [] \/ length o = length (t_stops tr)).
      { cbv zeta. destruct (le_lt_dec 2 (length (t_stops tr))) as [L|L].
        - right. destruct (C79_offsets_by_stops best_segment sqdist best_segment_in (h_poly h) (map loc (t_stops tr)) (0, 0)) as [Q _];
            rewrite ?map_length in *; auto.
        - left. unfold get_offsets_by_stops. rewrite map_length.
          destruct (Z.ltb_spec (Z.of_nat (length (t_stops tr))) 2); [reflexivity|lia]. }
      destruct (h_dist h) as [|e es] eqn:EH; [exact BS|]. destruct (t_dist tr0) as [|d ds] eqn:ED; [exact BS|].
      right. destruct (C79_offsets_by_distance (d :: ds) (e :: es) ltac:(discriminate)) as [Q _].
      rewrite Q. destruct D0; [discriminate|assumption]. }
    destruct (offsets_of best_segment sqdist (h_poly h) (h_dist h) (map loc (t_stops tr)) (t_dist tr0) (0, 0)) as [|o os] eqn:EO; [discriminate|].
    inversion H; subst. destruct (OS _ eq_refl) as [Q|Q]; [discriminate|exact Q].
  Qed.

  Definition state_ok (sq : list Z) (runs : list (nat * trip)) (b : box) (segs : list box) : Prop :=
    length segs = (length sq - 1)%nat /\ VHull (RoutePoint sq runs) b /\
    forall k, (k < length segs)%nat -> VHull (SegmentPoint sq runs k) (nth k segs None).

  Lemma between_none : forall tr, trip_offsets best_segment sqdist shapes loc (0, 0) trips tr = None ->
    forall i, between tr i = [].
  Proof. intros tr H i. unfold between, get_shape. rewrite H. reflexivity. Qed.

  Lemma between_some : forall tr sh offs h i,
    trip_offsets best_segment sqdist shapes loc (0, 0) trips tr = Some (sh, offs) ->
    nth_error shapes sh = Some h ->
    between tr i = subspan (h_poly h) (nth i offs 0) (nth (i + 1) offs 0 - nth i offs 0 + 1).
  Proof.
    intros tr sh offs h i H N. unfold between, get_shape. rewrite H, N. unfold get_subshape.
    replace (i + 2 - 1)%nat with (i + 1)%nat by lia. reflexivity.
  Qed.

  Lemma state_skip : forall sq runs b segs from tr, (forall i, between tr i = []) ->
    state_ok sq runs b segs -> state_ok sq (runs ++ [(from, tr)]) b segs.
  Proof.
    intros sq runs b segs from tr E [L [H1 H2]]. split; [exact L|]. split.
    - eapply hull_ext; [|exact H1]. intro p. unfold RoutePoint. split.
      + intros [K|[f [t [i [A B]]]]]; auto. right. exists f, t, i. split; [apply in_or_app; auto|exact B].
      + intros [K|[f [t [i [A [B C]]]]]]; auto. right. apply in_app_or in A. destruct A as [A|[A|[]]]; [exists f, t, i; auto|].
        inversion A; subst. rewrite E in C. elim C.
    - intros k K. eapply hull_ext; [|exact (H2 k K)]. intro p. unfold SegmentPoint. split.
      + intros [Q|[f [t [i [A B]]]]]; auto. right. exists f, t, i. split; [apply in_or_app; auto|exact B].
      + intros [Q|[f [t [i [A [B [C D]]]]]]]; auto. right. apply in_app_or in A. destruct A as [A|[A|[]]]; [exists f, t, i; auto|].
        inversion A; subst. rewrite E in D. elim D.
  Qed.

  Lemma route_snoc : forall sq runs from tr p, RoutePoint sq (runs ++ [(from, tr)]) p <->
    RoutePoint sq runs p \/ exists i, (i + 1 < length (t_stops tr))%nat /\ In p (between tr i).
  Proof.
    intros. unfold RoutePoint. split.
    - intros [K|[f [t [i [A [B C]]]]]]; auto. apply in_app_or in A. destruct A as [A|[A|[]]].
      + left. right. exists f, t, i. auto.
      + inversion A; subst. right. exists i. auto.
    - intros [[K|[f [t [i [A [B C]]]]]]|[i [B C]]]; auto; right.
      + exists f, t, i. split; [apply in_or_app; auto|auto].
      + exists from, tr, i. split; [apply in_or_app; right; left; reflexivity|auto].
  Qed.

  Lemma segment_snoc : forall sq runs from tr k p, SegmentPoint sq (runs ++ [(from, tr)]) k p <->
    SegmentPoint sq runs k p \/
    exists i, (from + i)%nat = k /\ (i + 1 < length (t_stops tr))%nat /\ In p (between tr i).
  Proof.
    intros. unfold SegmentPoint. split.
    - intros [K|[f [t [i [A [B C]]]]]]; auto. apply in_app_or in A. destruct A as [A|[A|[]]].
      + left. right. exists f, t, i. auto.
      + inversion A; subst. right. exists i. auto.
    - intros [[K|[f [t [i [A [B C]]]]]]|[i [B C]]]; auto; right.
      + exists f, t, i. split; [apply in_or_app; auto|auto].
      + exists from, tr, i. split; [apply in_or_app; right; left; reflexivity|auto].
  Qed.

  Lemma nth_map_seq : forall {A} (f : nat -> A) n k d, (k < n)%nat -> nth k (map f (seq 0 n)) d = f k.
  Proof.
    intros A f n k d H. rewrite (nth_indep _ d (f n)) by (rewrite map_length, seq_length; exact H).
    rewrite (map_nth f (seq 0 n) n k). rewrite seq_nth by exact H. reflexivity.
  Qed.

  Lemma task_boxes_ne : forall shp offs stops, offs <> [] -> task_boxes shp offs stops =
    let idx := seq 0 (length offs - 1) in
    let part i := subspan shp (nth i offs 0) (nth (i + 1) offs 0 - nth i offs 0 + 1) in
    let segs := map (fun i => make_box (part i)) idx in
    (fold_left extend (flat_map part idx) None,
     if forallb (fun i => contains_box (make_box [nth i stops (0, 0); nth (i + 1) stops (0, 0)]) (nth i segs None)) idx
     then [] else segs).
  Proof. intros shp [|o os] stops N; [congruence|reflexivity]. Qed.

  Lemma add_trip_ok : forall sq runs b segs from tr, on_route sq (from, tr) -> state_ok sq runs b segs ->
    exists b' segs', add_trip best_segment sqdist shapes loc trips (Some (b, segs)) (from, tr) = Some (b', segs') /\
      state_ok sq (runs ++ [(from, tr)]) b' segs'.
  Proof.
    intros sq runs b segs from tr [IN [L1 ON]] OK. unfold add_trip. cbn [fst snd] in *.
    destruct (trip_offsets best_segment sqdist shapes loc (0, 0) trips tr) as [[sh offs]|] eqn:TO.
    2: { exists b, segs. split; [reflexivity|]. apply state_skip; auto. apply between_none. exact TO. }
    pose proof (offsets_length tr sh offs IN TO) as LO.
    destruct (nth_error shapes sh) as [h|] eqn:NE.
    2: { exists b, segs. split; [reflexivity|]. apply state_skip; auto. intro i. unfold between, get_shape. rewrite TO, NE. reflexivity. }
    destruct OK as [LS [HB HS]].
    assert (BT : forall i, between tr i = subspan (h_poly h) (nth i offs 0) (nth (i + 1) offs 0 - nth i offs 0 + 1)).
    { intro i. eapply between_some; eauto. }
    assert (SQ : (from + length (t_stops tr) <= length sq)%nat).
    { pose proof (ON (length (t_stops tr) - 1)%nat ltac:(lia)) as Q.
      destruct (nth_error (t_stops tr) (length (t_stops tr) - 1)) as [x|] eqn:EX.
      - assert (from + (length (t_stops tr) - 1) < length sq)%nat; [|lia].
        apply nth_error_Some. intro Y. rewrite Y in Q. discriminate.
      - apply nth_error_None in EX. lia. }
    rewrite task_boxes_ne by (intro Q; rewrite Q in LO; cbn in LO; lia). cbv zeta.
    rewrite LO. set (n := length (t_stops tr)) in *.
    set (part := fun i => subspan (h_poly h) (nth i offs 0) (nth (i + 1) offs 0 - nth i offs 0 + 1)) in *.
    fold part. set (sgs := map (fun i => make_box (part i)) (seq 0 (n - 1))).
    assert (HT : VHull (fun p => exists i, (i + 1 < n)%nat /\ In p (between tr i))
                   (fold_left extend (flat_map part (seq 0 (n - 1))) None)).
    { eapply hull_ext; [|apply hull_list]. intro p. rewrite in_flat_map. split.
      - intros [i [A B]]. apply in_seq in A. exists i. rewrite BT. split; [lia|exact B].
      - intros [i [A B]]. exists i. rewrite BT in B. split; [apply in_seq; lia|exact B]. }
    assert (HSG : forall i, (i + 1 < n)%nat -> VHull (fun p => In p (between tr i)) (nth i sgs None)).
    { intros i I. unfold sgs. rewrite nth_map_seq by lia. rewrite BT. apply hull_list. }
    assert (LSG : length sgs = (n - 1)%nat) by (unfold sgs; rewrite map_length, seq_length; reflexivity).
    assert (HB' : VHull (RoutePoint sq (runs ++ [(from, tr)])) (merge b (fold_left extend (flat_map part (seq 0 (n - 1))) None))).
    { eapply hull_ext; [|exact (hull_merge _ _ _ _ HB HT)]. intro p. rewrite route_snoc. reflexivity. }
    assert (FULL : exists segs', add_segments from sgs segs = Some segs' /\ length segs' = (length sq - 1)%nat /\
              forall k, (k < length segs')%nat -> VHull (SegmentPoint sq (runs ++ [(from, tr)]) k) (nth k segs' None)).
    { unfold add_segments. destruct sgs as [|s0 ss] eqn:ES.
      - exists segs. split; [reflexivity|]. split; [exact LS|]. intros k K.
        eapply hull_ext; [|exact (HS k K)]. intro p. rewrite segment_snoc. split; auto.
        intros [Q|[i [_ [A _]]]]; auto. cbn in LSG. lia.
      - rewrite <- ES in *. clear ES s0 ss.
        destruct (Nat.ltb_spec (length segs) (from + length sgs)); [lia|].
        eexists. split; [reflexivity|]. split; [rewrite map_length, seq_length; exact LS|].
        intros k K. rewrite map_length, seq_length in K. rewrite nth_map_seq by exact K.
        destruct (Nat.leb_spec from k) as [F|F].
        + destruct (le_lt_dec (n - 1) (k - from)) as [G|G].
          * rewrite (nth_overflow sgs) by lia. cbn [merge]. eapply hull_ext; [|exact (HS k K)]. intro p. rewrite segment_snoc.
            split; auto. intros [Q|[i [A [B _]]]]; auto. lia.
          * eapply hull_ext; [|exact (hull_merge _ _ _ _ (HS k K) (HSG (k - from)%nat ltac:(lia)))].
            intro p. rewrite segment_snoc. split.
            { intros [Q|Q]; auto. right. exists (k - from)%nat. split; [lia|]. split; [lia|exact Q]. }
            { intros [Q|[i [A [B C]]]]; auto. right. replace (k - from)%nat with i by lia. exact C. }
        + eapply hull_ext; [|exact (HS k K)]. intro p. rewrite segment_snoc. split; auto.
          intros [Q|[i [A _]]]; auto. lia. }
    match goal with |- context [forallb ?f ?l] => set (trivial := forallb f l) end.
    destruct trivial eqn:ET; cbn [fst snd].
    2: { destruct FULL as [segs' [F1 [F2 F3]]]. unfold sgs, part in F1. rewrite F1. eexists. exists segs'. split; [reflexivity|].
         split; [exact F2|]. split; [exact HB'|exact F3]. }
    cbn [add_segments]. eexists. exists segs. split; [reflexivity|]. split; [exact LS|]. split; [exact HB'|].
    intros k K. eapply hull_ext; [intro p; symmetry; apply segment_snoc|].
    apply hull_absorb; [exact (HS k K)|]. intros p [i [A [B C]]].
    unfold trivial in ET. rewrite forallb_forall in ET. specialize (ET i ltac:(apply in_seq; lia)).
    destruct (HSG i B) as [_ [C1 _]]. specialize (C1 p C).
    pose proof (contains_inside _ _ _ ET C1) as Q.
    destruct (hull_list [nth i (map loc (t_stops tr)) (0, 0); nth (i + 1) (map loc (t_stops tr)) (0, 0)]) as [_ [_ M]].
    apply (M (nth k segs None)); [|exact Q].
    destruct (HS k K) as [_ [H1 _]].
    assert (AT : forall j, (j < n)%nat -> (from + j = k \/ from + j = k + 1)%nat ->
               inside (nth j (map loc (t_stops tr)) (0, 0)) (nth k segs None)).
    { intros j J E. apply H1. left.
      assert (X : exists x, nth_error (t_stops tr) j = Some x).
      { destruct (nth_error (t_stops tr) j) eqn:EX; eauto. apply nth_error_None in EX. lia. }
      destruct X as [x X]. pose proof (ON j J) as Y. rewrite X in Y.
      destruct (nth_error sq (from + j)) as [y|] eqn:EY; [|discriminate]. inversion Y as [YL].
      exists y. split.
      - rewrite <- EY. destruct E as [<-|<-]; auto.
      - rewrite YL. rewrite (nth_error_nth (map loc (t_stops tr)) j (0, 0) (x := loc x)); auto.
        apply map_nth_error. exact X. }
    intros q [<-|[<-|[]]]; apply AT; lia.
  Qed.

  (** The box of a route is the smallest around its stops and the shapes of
      the trips on it; the box of a segment the smallest around its two stops
      and the points its trips pass between them; loading does not fail. *)
  Theorem C80_boxes : forall sq runs,
    (forall x, In x runs -> on_route sq x) ->
    exists b segs, route_boxes best_segment sqdist shapes loc trips sq runs = Some (b, segs) /\
      Hull (RoutePoint sq runs) b /\
      (forall k, (k + 1 < length sq)%nat -> exists s, segment_box segs k = Some s /\ Hull (SegmentPoint sq runs k) s) /\
      (forall k, (length sq <= k + 1)%nat -> segment_box segs k = None).
  Proof.
    intros sq runs ON. unfold route_boxes. 
    assert (G : forall rest done b segs, (forall x, In x rest -> on_route sq x) -> state_ok sq done b segs ->
      exists b' segs', fold_left (add_trip best_segment sqdist shapes loc trips) rest (Some (b, segs)) = Some (b', segs') /\
        state_ok sq (done ++ rest) b' segs').
    { induction rest as [|[from tr] rest IH]; intros dn b segs O H.
      - exists b, segs. rewrite app_nil_r. split; [reflexivity|exact H].
      - destruct (add_trip_ok sq dn b segs from tr (O _ (or_introl eq_refl)) H) as [b1 [s1 [E H1]]].
        cbn [fold_left]. rewrite E. destruct (IH (dn ++ [(from, tr)]) b1 s1 (fun x I => O x (or_intror I)) H1) as [b2 [s2 [E2 H2]]].
        exists b2, s2. split; [exact E2|]. rewrite <- app_assoc in H2. exact H2. }
    set (segs0 := map _ (seq 0 (length sq - 1))).
    assert (L0 : length segs0 = (length sq - 1)%nat) by (unfold segs0; rewrite map_length, seq_length; reflexivity).
    destruct (G runs [] (make_box (map loc sq)) segs0 ON) as [b [segs [E [L [H1 H2]]]]].
    { split; [exact L0|]. split.
      - eapply hull_ext; [|apply hull_list]. intro p. unfold RoutePoint. split; auto.
        intros [K|[f [t [i [[] _]]]]]; auto.
      - intros k K. unfold segs0. rewrite nth_map_seq by lia.
        eapply hull_ext; [|apply hull_list]. intro p.
        assert (AT : forall j, (j < length sq)%nat -> exists s, nth_error sq j = Some s /\ nth j (map loc sq) (0, 0) = loc s).
        { intros j J. destruct (nth_error sq j) as [s|] eqn:X; [|apply nth_error_None in X; lia].
          exists s. split; auto. apply nth_error_nth. apply map_nth_error. exact X. }
        destruct (AT k ltac:(lia)) as [s [S1 S2]]. destruct (AT (k + 1)%nat ltac:(lia)) as [s' [S3 S4]].
        rewrite S2, S4. unfold SegmentPoint. split.
        + intros [<-|[<-|[]]]; left; [exists s|exists s']; split; auto.
        + intros [[x [[X|X] ->]]|[f [t [i [[] _]]]]].
          * left. congruence.
          * right. left. congruence. }
    exists b, segs. split; [exact E|]. split; [apply H1|]. split.
    - intros k K. exists (nth k segs None). split; [apply nth_error_nth'; lia|]. apply H2. lia.
    - intros k K. apply nth_error_None. lia.
  Qed.
End Routes.

(** ** Example: a shape with a detour, a trip without shape and one whose shape
    stays between the stops. *)
Module Bbox_Examples.
  Definition sqd (a b : pt) : Z := (fst a - fst b) * (fst a - fst b) + (snd a - snd b) * (snd a - snd b).
  Fixpoint best_from (p : pt) (l : list pt) (i : nat) (best : nat * Z) : nat :=
    match l with
    | a :: ((b :: _) as t) =>
      let d := Z.min (sqd p a) (sqd p b) in
      best_from p t (Datatypes.S i) (if d <? snd best then (i, d) else best)
    | _ => fst best
    end.
  Definition seg (p : pt) (l : list pt) : nat := best_from p l 0 (O, 1000000).
  Lemma seg_in : forall p l, (2 <= length l)%nat -> (seg p l + 1 < length l)%nat.
  Proof.
    intros p l H. unfold seg.
    assert (G : forall (l : list pt) i best, ((fst best + 1 < i + length l)%nat) ->
              (best_from p l i best + 1 < i + length l)%nat).
    { clear. induction l as [|a l IH]; intros i best H; cbn [best_from]; [exact H|].
      destruct l as [|b l]; [exact H|].
      specialize (IH (Datatypes.S i)). cbn [length] in *.
      match goal with |- context [best_from p (b :: l) _ ?B] => specialize (IH B) end.
      destruct (Z.ltb_spec (Z.min (sqd p a) (sqd p b)) (snd best)); cbn [fst] in *; lia. }
    apply (G l O). cbn. lia.
  Qed.
  Definition loc (s : Z) : pt := (10 * s, 0).
  Definition shapes : list (shape pt) :=
    [ Shape 1 [(0, 0); (5, 7); (10, 1); (20, -3); (21, 0)] [] [];
      Shape 2 [(10, 0); (15, 0); (20, 0)] [] [] ].
  Definition tr1 := Trip (Some 0%nat) [0; 1; 2] [].
  Definition tr2 := Trip (Some 1%nat) [1; 2] [].
  Definition tr3 := Trip None [0; 1; 2; 3] [].
  Definition trips := [tr1; tr2; tr3].
  Example boxes : route_boxes seg sqd shapes loc trips [0; 1; 2; 3] [(O, tr1); (1%nat, tr2); (O, tr3)] =
    Some (Some (0, -3, 30, 7),
          [Some (0, 0, 10, 7); Some (10, -3, 21, 1); Some (20, 0, 30, 0)]).
  Proof. vm_compute. reflexivity. Qed.
  Example trivial_box : snd (task_boxes [(10, 0); (15, 0); (20, 0)] [0; 2] [(10, 0); (20, 0)]) = [].
  Proof. vm_compute. reflexivity. Qed.
  Example hyps : forall x, In x [(O, tr1); (1%nat, tr2); (O, tr3)] -> on_route loc trips [0; 1; 2; 3] x.
  Proof.
    intros x [<-|[<-|[<-|[]]]]; (split; [cbn; tauto|]); (split; [cbn; lia|]); intros i I; cbn in I;
      do 4 (destruct i as [|i]; [first [exfalso; lia | reflexivity]|]); exfalso; lia.
  Qed.
  Example applies : exists b segs, 
    route_boxes seg sqd shapes loc trips [0; 1; 2; 3] [(O, tr1); (1%nat, tr2); (O, tr3)] = Some (b, segs) /\
    Hull (RoutePoint seg sqd shapes loc trips [0; 1; 2; 3] [(O, tr1); (1%nat, tr2); (O, tr3)]) b.
  Proof.
    destruct (C80_boxes seg sqd seg_in shapes loc trips) with (sq := [0; 1; 2; 3]) (runs := [(O, tr1); (1%nat, tr2); (O, tr3)])
      as [b [segs [E [H _]]]].
    - intros x [<-|[<-|[<-|[]]]]; left; reflexivity.
    - exact hyps.
    - exists b, segs. auto.
  Qed.
End Bbox_Examples.
