(** C81: the polyline of a stretch of a run. *)
From Coq Require Import ZArith List Lia Bool.
From Verif Require Import Polyline_Model.
Import ListNotations.
Local Open Scope Z_scope.

(** ** Specification *)
(** The trips of a transport with sections [secs], from stop [f] on: maximal
    runs of sections of one trip, two trips share the stop between them. *)
Inductive TripRuns (secs : list Z) : nat -> list (Z * nat * nat) -> Prop :=
| tr_last : forall f t, (f < length secs)%nat ->
    (forall i, (f <= i < length secs)%nat -> nth_error secs i = Some t) ->
    TripRuns secs f [(t, f, (length secs + 1)%nat)]
| tr_next : forall f e t rest, (f < e < length secs)%nat ->
    (forall i, (f <= i < e)%nat -> nth_error secs i = Some t) ->
    nth_error secs e <> Some t ->
    TripRuns secs e rest ->
    TripRuns secs f ((t, f, (e + 1)%nat) :: rest).

(** [out] is [full] with each point repeated in a row once. *)
Definition Squeezed {P} (full out : list P) : Prop :=
  (forall i x y, nth_error out i = Some x -> nth_error out (i + 1) = Some y -> x <> y) /\
  exists counts, length counts = length out /\
    full = flat_map (fun xn => repeat (fst xn) (Datatypes.S (snd xn))) (combine out counts).

(** ** The trips of a run *)
Section Trips.
  Variable invalid : Z.

  Lemma trip_loop_spec : forall rest pre cur cf,
    (cf < length pre)%nat ->
    (forall i, (cf <= i < length pre)%nat -> nth_error (pre ++ rest) i = Some cur) ->
    TripRuns (pre ++ rest) cf (trip_loop (length (pre ++ rest) + 1) rest (length pre) cur cf).
  Proof.
    induction rest as [|t rest IH]; intros pre cur cf L H; cbn [trip_loop].
    - rewrite app_nil_r in *. constructor; auto.
    - assert (E : pre ++ t :: rest = (pre ++ [t]) ++ rest) by (rewrite <- app_assoc; reflexivity).
      assert (LP : length (pre ++ [t]) = (length pre + 1)%nat) by (rewrite app_length; reflexivity).
      assert (N : nth_error (pre ++ t :: rest) (length pre) = Some t).
      { rewrite nth_error_app2 by lia. rewrite Nat.sub_diag. reflexivity. }
      destruct (Z.eqb_spec t cur) as [->|D].
      + rewrite <- LP. rewrite E in *. apply IH; [lia|]. intros i I.
        destruct (Nat.eq_dec i (length pre)) as [->|Q]; [exact N|]. apply H. lia.
      + destruct (Nat.eqb_spec (length pre) 0); [lia|]. cbn [app].
        apply tr_next; [rewrite app_length; cbn [length]; lia|exact H|rewrite N; congruence|].
        rewrite <- LP. rewrite E in *. apply IH; [lia|]. intros i I.
        replace i with (length pre) by lia. exact N.
  Qed.

  (** for_each_trip reports the trips of the transport in order. *)
  Theorem C81_trips : forall secs, secs <> [] -> TripRuns secs 0 (for_each_trip invalid secs).
  Proof.
    intros [|t rest] N; [congruence|]. unfold for_each_trip. cbn [trip_loop].
    change (t :: rest) with ([t] ++ rest). cbn [Nat.eqb app].
    assert (G : TripRuns ([t] ++ rest) 0 (trip_loop (length ([t] ++ rest) + 1) rest (length [t]) t 0)).
    { apply trip_loop_spec; [cbn; lia|]. intros i I. cbn in I. replace i with O by lia. reflexivity. }
    destruct (Z.eqb_spec t invalid) as [<-|D]; exact G.
  Qed.
End Trips.

(** ** The polyline *)
Section Polyline.
  Context {P : Type}.
  Variable P_eqb : P -> P -> bool.
  Hypothesis P_eqb_spec : forall x y, P_eqb x y = true <-> x = y.
  Variable invalid : Z.
  Variable pos : nat -> P.
  Variable shape_of : Z -> nat -> nat -> list P * bool.
  Variable has_shapes : bool.

  (** What the trip (t, stops [f, e)) adds to the stretch [a, b). *)
  Definition Piece (a b : nat) (x : Z * nat * nat) (l : list P) : Prop :=
    let '(t, f, e) := x in
    exists lo hi, lo = Nat.max f a /\ hi = Nat.min e b /\
    ((hi <= lo + 1)%nat /\ l = [] \/
     (lo + 1 < hi)%nat /\
     let none := has_shapes = false \/ t = invalid \/ fst (shape_of t (lo - f) (hi - f)) = [] in
     ((none -> l = map pos (seq lo (hi - lo))) /\
      (~ none -> snd (shape_of t (lo - f) (hi - f)) = true ->
         l = [pos lo] ++ fst (shape_of t (lo - f) (hi - f)) ++ [pos (hi - 1)%nat]) /\
      (~ none -> snd (shape_of t (lo - f) (hi - f)) = false -> l = fst (shape_of t (lo - f) (hi - f))))).

  Notation piece := (piece invalid pos shape_of has_shapes).

  Lemma piece_spec : forall a b x, Piece a b x (piece a b x).
  Proof.
    intros a b [[t f] e]. unfold Piece, Polyline_Model.piece. exists (Nat.max f a), (Nat.min e b).
    split; [reflexivity|]. split; [reflexivity|].
    destruct (Nat.ltb_spec (Nat.max f a + 1) (Nat.min e b)) as [L|L]; [right; split; [exact L|]|left; split; [lia|reflexivity]].
    cbv zeta. destruct has_shapes; cbn [andb].
    2: { split; [reflexivity|]. split; intros N; elim N; auto. }
    destruct (Z.eqb_spec t invalid) as [->|D]; cbn [negb].
    { split; [reflexivity|]. split; intros N; elim N; auto. }
    destruct (shape_of t (Nat.max f a - f) (Nat.min e b - f)) as [[|s sh] src]; cbn [fst snd].
    - split; [reflexivity|]. split; intros N; elim N; auto.
    - split; [intros [K|[K|K]]; congruence|]. split; intros _ ->; reflexivity.
  Qed.

  (** The stops of [a, b) are the ends of the first and of the last piece, when
      no shape is a routed one. *)
  Lemma piece_ends : forall a b t f e, (forall t i j, fst (shape_of t i j) <> [] -> snd (shape_of t i j) = true) ->
    let l := piece a b (t, f, e) in
    (Nat.max f a + 1 < Nat.min e b)%nat ->
    hd_error l = Some (pos (Nat.max f a)) /\ hd_error (rev l) = Some (pos (Nat.min e b - 1)%nat).
  Proof.
    intros a b t f e NR. cbv zeta. unfold Polyline_Model.piece. set (lo := Nat.max f a). set (hi := Nat.min e b).
    intro L. destruct (Nat.ltb_spec (lo + 1) hi); [|lia].
    assert (ST : hd_error (map pos (seq lo (hi - lo))) = Some (pos lo) /\
                 hd_error (rev (map pos (seq lo (hi - lo)))) = Some (pos (hi - 1)%nat)).
    { split; [destruct (hi - lo)%nat eqn:E; [lia|reflexivity]|].
      replace (hi - lo)%nat with (Datatypes.S (hi - lo - 1)) by lia. rewrite seq_S, map_app, rev_app_distr. cbn.
      f_equal. f_equal. lia. }
    destruct (has_shapes && negb (t =? invalid)); [|exact ST].
    specialize (NR t (lo - f)%nat (hi - f)%nat).
    destruct (shape_of t (lo - f) (hi - f)) as [[|s sh] src]; [exact ST|]. cbn [fst snd] in NR.
    rewrite (NR ltac:(discriminate)). split; [reflexivity|].
    change (pos lo :: (s :: sh) ++ [pos (hi - 1)%nat]) with ((pos lo :: s :: sh) ++ [pos (hi - 1)%nat]).
    rewrite rev_app_distr. reflexivity.
  Qed.

  Lemma hd_app : forall {A} (l m : list A) x, hd_error l = Some x -> hd_error (l ++ m) = Some x.
  Proof. intros A [|y l] m x H; [discriminate|exact H]. Qed.

  Lemma pieces_ends : forall secs f runs a b,
    (forall t i j, fst (shape_of t i j) <> [] -> snd (shape_of t i j) = true) ->
    TripRuns secs f runs -> (a + 2 <= b)%nat -> (b <= length secs + 1)%nat ->
    let full := flat_map (piece a b) runs in
    ((b <= f + 1)%nat -> full = []) /\
    ((f + 1 < b)%nat -> hd_error full = Some (pos (Nat.max f a)) /\ hd_error (rev full) = Some (pos (b - 1)%nat)).
  Proof.
    intros secs f runs a b NR T AB B. cbv zeta. induction T as [f t F C|f e t rest F C D T IH]; cbn [flat_map].
    - rewrite app_nil_r. split.
      + intro L. unfold Polyline_Model.piece. destruct (Nat.ltb_spec (Nat.max f a + 1) (Nat.min (length secs + 1) b)); [lia|reflexivity].
      + intro L. destruct (piece_ends a b t f (length secs + 1)%nat NR) as [Q1 Q2]; [lia|].
        split; [exact Q1|]. rewrite Q2. do 2 f_equal. lia.
    - destruct IH as [I1 I2]. split.
      + intro L. rewrite I1 by lia. rewrite app_nil_r. unfold Polyline_Model.piece.
        destruct (Nat.ltb_spec (Nat.max f a + 1) (Nat.min (e + 1) b)); [lia|reflexivity].
      + intro L. destruct (le_lt_dec b (e + 1)) as [G|G].
        * rewrite I1 by lia. rewrite app_nil_r. destruct (piece_ends a b t f (e + 1)%nat NR) as [Q1 Q2]; [lia|].
          split; [exact Q1|]. rewrite Q2. do 2 f_equal. lia.
        * destruct (I2 G) as [J1 J2]. rewrite rev_app_distr. split; [|apply hd_app; exact J2].
          destruct (le_lt_dec (Nat.min (e + 1) b) (Nat.max f a + 1)) as [K|K].
          { unfold Polyline_Model.piece at 1. destruct (Nat.ltb_spec (Nat.max f a + 1) (Nat.min (e + 1) b)); [lia|].
            cbn [app]. rewrite J1. do 2 f_equal. lia. }
          { destruct (piece_ends a b t f (e + 1)%nat NR K) as [Q1 _]. apply hd_app. exact Q1. }
  Qed.

  (** Squeezing *)
  Lemma consume_all : forall full out done, Squeezed done (rev out) ->
    Squeezed (done ++ full) (rev (fold_left (consume P_eqb) full out)).
  Proof.
    induction full as [|p full IH]; intros out dn H; cbn [fold_left]; [rewrite app_nil_r; exact H|].
    replace (dn ++ p :: full) with ((dn ++ [p]) ++ full) by (rewrite <- app_assoc; reflexivity).
    apply IH. destruct H as [H1 [counts [H2 H3]]]. unfold consume.
    destruct out as [|q out].
    - split; [intros [|[|i]] x y; cbn; congruence|]. exists [O]. split; [reflexivity|].
      destruct counts; [|discriminate]. cbn in H3. subst dn. reflexivity.
    - destruct (P_eqb p q) eqn:E.
      + apply P_eqb_spec in E. subst q. split; [exact H1|]. cbn [rev] in *.
        destruct (exists_last (l := counts)) as [cs [c EC]]; [intro Q; rewrite Q, app_length in H2; cbn in H2; lia|].
        subst counts. rewrite !app_length in H2. cbn [length] in H2.
        exists (cs ++ [Datatypes.S c]). split; [rewrite !app_length; cbn [length]; lia|].
        assert (CA : forall z, combine (rev out ++ [p]) (cs ++ [z]) = combine (rev out) cs ++ [(p, z)]).
        { intro z. assert (LL : length (rev out) = length cs) by lia. revert cs H2 H3 LL. generalize (rev out). 
          induction l as [|x l IHl]; intros [|y cs] H2 H3 LL; cbn in *; try lia; auto. f_equal.
          clear - LL. revert cs LL. induction l as [|w l IHl]; intros [|y cs] LL; cbn in *; try lia; auto. f_equal. apply IHl. lia. }
        rewrite CA in H3 |- *. rewrite flat_map_app in H3 |- *. subst dn. rewrite <- app_assoc. f_equal.
        cbn [flat_map fst snd]. rewrite !app_nil_r. rewrite <- (repeat_cons (Datatypes.S c) p). reflexivity.
      + cbn [rev] in *. split.
        * intros i x y X Y. 
          assert (LI : (i + 1 < length ((rev out ++ [q]) ++ [p]))%nat) by (apply nth_error_Some; congruence).
          rewrite app_length in LI. cbn [length] in LI.
          rewrite nth_error_app1 in X by lia.
          destruct (Nat.eq_dec (i + 1) (length (rev out ++ [q]))) as [EQ|NE].
          { rewrite EQ, nth_error_app2, Nat.sub_diag in Y by lia. inversion Y; subst y.
            rewrite app_length in EQ. cbn [length] in EQ.
            rewrite nth_error_app2 in X by lia. replace (i - length (rev out))%nat with O in X by lia. inversion X; subst x.
            intro Q. subst q. assert (P_eqb p p = true) by (apply P_eqb_spec; reflexivity). congruence. }
          { rewrite nth_error_app1 in Y by lia. exact (H1 i x y X Y). }
        * exists (counts ++ [O]). split; [rewrite !app_length in *; cbn [length] in *; lia|].
          assert (CA : combine ((rev out ++ [q]) ++ [p]) (counts ++ [O]) = combine (rev out ++ [q]) counts ++ [(p, O)]).
          { clear - H2. revert counts H2. generalize (rev out ++ [q]).
            induction l as [|x l IHl]; intros [|y cs] LL; cbn in *; try lia; auto. f_equal. apply IHl. lia. }
          rewrite CA, flat_map_app, <- H3. reflexivity.
  Qed.

  Lemma squeezed_hd : forall full out : list P, Squeezed full out -> hd_error out = hd_error full.
  Proof.
    intros full out [_ [counts [L ->]]]. destruct out as [|x out]; [reflexivity|].
    destruct counts as [|c cs]; [discriminate|]. reflexivity.
  Qed.

  Lemma squeezed_last : forall full out : list P, Squeezed full out -> hd_error (rev out) = hd_error (rev full).
  Proof.
    intros full out [_ [counts [L ->]]]. clear P_eqb_spec. revert counts L.
    induction out as [|x out IH]; intros [|c cs] L; try discriminate; [reflexivity|].
    cbn [combine flat_map fst snd]. rewrite rev_app_distr. destruct out as [|y out].
    - destruct cs; [|discriminate]. cbn [flat_map combine rev app].
      change (repeat x (Datatypes.S c)) with (x :: repeat x c). rewrite (repeat_cons c x).
      rewrite rev_app_distr. reflexivity.
    - cbn [length] in L. specialize (IH cs ltac:(cbn [length]; lia)). cbn [rev].
      destruct (rev (y :: out)) as [|z l] eqn:E.
      { apply (f_equal (@length P)) in E. rewrite rev_length in E. discriminate. }
      cbn [rev] in E. rewrite E. cbn [hd_error app] in *. 
      symmetry in IH. symmetry. rewrite (hd_app _ _ z IH). reflexivity.
  Qed.

  (** For a stretch of at least two stops: the polyline is made of the pieces
      of the trips it runs through, without a point twice in a row; when all
      are at one place it is that point twice. *)
  Theorem C81_polyline : forall secs a b, (a + 2 <= b)%nat -> (b <= length secs + 1)%nat ->
    exists out runs pieces, shape_points P_eqb invalid pos shape_of has_shapes secs a b = Some out /\
      TripRuns secs 0 runs /\ Forall2 (Piece a b) runs pieces /\
      (Squeezed (concat pieces) out /\ (2 <= length out)%nat \/
       exists p, out = [p; pos (b - 1)%nat] /\ Squeezed (concat pieces) [p] \/
       out = [pos a; pos (b - 1)%nat] /\ concat pieces = []).
  Proof.
    intros secs a b AB B. unfold shape_points. destruct (Nat.ltb_spec (b - a) 2); [lia|].
    set (runs := for_each_trip invalid secs). set (full := flat_map (piece a b) runs).
    assert (SQ : Squeezed full (rev (fold_left (consume P_eqb) full []))).
    { apply (consume_all full [] []). split; [intros [|i] x y; cbn; congruence|]. exists []. split; reflexivity. }
    eexists. exists runs, (map (piece a b) runs). split; [reflexivity|].
    split; [apply C81_trips; intro Q; rewrite Q in B; cbn in B; lia|]. split.
    { clear. induction runs; constructor; auto. apply piece_spec. }
    rewrite <- flat_map_concat_map. fold full.
    destruct (rev (fold_left (consume P_eqb) full [])) as [|x [|y l]].
    - right. exists (pos a). right. split; [reflexivity|]. destruct SQ as [_ [counts [_ ->]]]. reflexivity.
    - right. exists x. left. split; [reflexivity|exact SQ].
    - left. split; [exact SQ|]. cbn. lia.
  Qed.

  (** Without routed shapes it runs from the first stop to the last one, with
      at least two points, different in a row unless it is one point twice. *)
  Theorem C81_from_stop_to_stop : forall secs a b, (a + 2 <= b)%nat -> (b <= length secs + 1)%nat ->
    (forall t i j, fst (shape_of t i j) <> [] -> snd (shape_of t i j) = true) ->
    exists out, shape_points P_eqb invalid pos shape_of has_shapes secs a b = Some out /\
      (2 <= length out)%nat /\ hd_error out = Some (pos a) /\ hd_error (rev out) = Some (pos (b - 1)%nat) /\
      ((forall i x y, nth_error out i = Some x -> nth_error out (i + 1) = Some y -> x <> y) \/
       out = [pos a; pos a]).
  Proof.
    intros secs a b AB B NR. unfold shape_points. destruct (Nat.ltb_spec (b - a) 2); [lia|].
    set (runs := for_each_trip invalid secs). set (full := flat_map (piece a b) runs).
    assert (SQ : Squeezed full (rev (fold_left (consume P_eqb) full []))).
    { apply (consume_all full [] []). split; [intros [|i] x y; cbn; congruence|]. exists []. split; reflexivity. }
    assert (T : TripRuns secs 0 runs) by (apply C81_trips; intro Q; rewrite Q in B; cbn in B; lia).
    destruct (pieces_ends secs 0 runs a b NR T AB B) as [_ Q]. destruct (Q ltac:(lia)) as [Q1 Q2]. fold full in Q1, Q2.
    rewrite Nat.max_0_l in Q1. pose proof (squeezed_hd _ _ SQ) as S1. pose proof (squeezed_last _ _ SQ) as S2.
    rewrite Q1 in S1. rewrite Q2 in S2. eexists. split; [reflexivity|].
    destruct (rev (fold_left (consume P_eqb) full [])) as [|x [|y l]]; [discriminate| |].
    - cbn in S1, S2. assert (E1 : x = pos a) by congruence. assert (E2 : x = pos (b - 1)%nat) by congruence.
      split; [cbn; lia|]. split; [exact S1|]. split; [reflexivity|]. right. congruence.
    - split; [cbn; lia|]. split; [exact S1|]. split; [exact S2|]. left. apply SQ.
  Qed.

  (** A range of fewer than two stops is refused. *)
  Theorem C81_short_range : forall secs a b, (b < a + 2)%nat ->
    shape_points P_eqb invalid pos shape_of has_shapes secs a b = None.
  Proof. intros. unfold shape_points. destruct (Nat.ltb_spec (b - a) 2); [reflexivity|lia]. Qed.
End Polyline.

(** ** Examples: trip 5 on the sections 0 and 1 with a shape, trip 6 on the
    sections 2 and 3 without, trip 7 on section 4 with a routed shape. *)
Module Polyline_Examples.
  Definition secs : list Z := [5; 5; 6; 6; 7].
  Definition pos (i : nat) : Z := Z.of_nat (10 * i).
  Definition shape_of (t : Z) (from to : nat) : list Z * bool :=
    if t =? 5 then (firstn (Datatypes.S (2 * (to - 1 - from))) (skipn (2 * from) [0; 5; 10; 16; 21]), true)
    else if t =? 7 then ([41; 49], false) else ([], true).
  Example trips : for_each_trip (-1) secs = [(5, 0%nat, 3%nat); (6, 2%nat, 5%nat); (7, 4%nat, 6%nat)].
  Proof. reflexivity. Qed.
  Example line : shape_points Z.eqb (-1) pos shape_of true secs 1 5 = Some [10; 16; 21; 20; 30; 40].
  Proof. reflexivity. Qed.
  Example no_shapes : shape_points Z.eqb (-1) pos shape_of false secs 1 5 = Some [10; 20; 30; 40].
  Proof. reflexivity. Qed.
  (** Two stops at one place. *)
  Example one_place : shape_points Z.eqb (-1) (fun _ => 3) shape_of false secs 1 5 = Some [3; 3].
  Proof. reflexivity. Qed.
  (** The hypotheses of the theorems. *)
  Example ends : exists out, shape_points Z.eqb (-1) pos (fun t i j => if t =? 7 then ([], true) else shape_of t i j) true secs 1 6 = Some out /\
    hd_error out = Some 10 /\ hd_error (rev out) = Some 50.
  Proof.
    destruct (C81_from_stop_to_stop Z.eqb Z.eqb_eq (-1) pos (fun t i j => if t =? 7 then ([], true) else shape_of t i j) true secs 1 6)
      as [out [E [_ [H1 [H2 _]]]]].
    - lia.
    - cbn. lia.
    - intros t i j. unfold shape_of. destruct (t =? 7); [cbn; congruence|].
      destruct (t =? 5); cbn; congruence.
    - exists out. auto.
  Qed.
End Polyline_Examples.

(** A routed shape is taken as it is: the line need not start at the stop. *)
Theorem C81_routed_ends_refuted :
  exists secs (pos : nat -> Z) shape_of a b out, (a + 2 <= b)%nat /\ (b <= length secs + 1)%nat /\
    shape_points Z.eqb (-1) pos shape_of true secs a b = Some out /\
    hd_error out <> Some (pos a) /\ hd_error (rev out) <> Some (pos (b - 1)%nat).
Proof.
  exists Polyline_Examples.secs, Polyline_Examples.pos, Polyline_Examples.shape_of, 4%nat, 6%nat, [41; 49].
  cbn. repeat split; try lia; discriminate.
Qed.
