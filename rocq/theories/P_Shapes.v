(** C79: shapes of trips. *)
From Coq Require Import ZArith List Lia Bool Permutation Sorting.Sorted.
From Verif Require Import Shapes_Model.
Import ListNotations.
Local Open Scope Z_scope.

(** ** Specification *)
Section Spec.
  Context {P : Type}.
  (** The rows of one shape id, in file order. *)
  Definition rows_of (id : Z) (rows : list (srow P)) : list (srow P) :=
    filter (fun r => s_id r =? id) rows.
  (** The ids in order of their first appearance. *)
  Fixpoint first_ids (seen : list Z) (rows : list (srow P)) : list Z :=
    match rows with
    | [] => []
    | r :: t => if existsb (Z.eqb (s_id r)) seen then first_ids seen t
                else s_id r :: first_ids (s_id r :: seen) t
    end.
  Definition ascending (l : list Z) : Prop :=
    forall i j, (i < j < length l)%nat -> nth i l 0 <= nth j l 0.
  Definition strictly_ascending (l : list Z) : Prop :=
    forall i j, (i < j < length l)%nat -> nth i l 0 < nth j l 0.
  (** [p] lists the positions of [l] so that the values ascend. *)
  Definition sorts (p : list nat) (l : list Z) : Prop :=
    Permutation p (seq 0 (length l)) /\ ascending (map (fun i => nth i l 0) p).
  (** [o] is the first position of [edges], from position [b] on, where the
      distance reaches [d]; the last position when there is none. *)
  Definition first_reaching (edges : list Z) (b d o : Z) : Prop :=
    let n := Z.of_nat (length edges) in
    b <= o <= n - 1 /\
    (forall j, b <= j < o -> nth (Z.to_nat j) edges 0 < d) /\
    (o = n - 1 \/ d <= nth (Z.to_nat o) edges 0).
End Spec.

(** ** Loading *)
Section Load.
  Context {P : Type}.
  Variable sort_perm : list Z -> list nat.
  Notation srow := (srow P).
  Notation shape := (shape P).

  (** The distances of a shape as its rows give them. *)
  Definition dists_ok (ds : list Z) (rows : list srow) : Prop :=
    (ds = [] /\ Forall (fun r => s_dist r = 0) rows) \/
    (ds = map s_dist rows /\ Exists (fun r => s_dist r <> 0) rows).

  Definition shape_ok (h : shape) (rows : list srow) : Prop :=
    h_poly h = map s_pt rows /\ h_seq h = map s_seq rows /\ dists_ok (h_dist h) rows.

  Lemma repeat_zero : forall rows : list srow,
    Forall (fun r => s_dist r = 0) rows -> repeat 0 (length rows) = map s_dist rows.
  Proof.
    induction 1 as [|r rows E _ IH]; simpl; auto. rewrite IH, E. reflexivity.
  Qed.

  Lemma push_point_ok : forall h rows r, shape_ok h rows -> shape_ok (push_point h r) (rows ++ [r]).
  Proof.
    intros h rows r [A [B C]]. unfold shape_ok, push_point; cbn.
    rewrite A, B, !map_app. split; [reflexivity|]. split; [reflexivity|].
    destruct C as [[C D]|[C D]].
    - rewrite C. unfold push_dist. destruct (Z.eqb_spec (s_dist r) 0) as [E|E].
      + left. split; auto. apply Forall_app. split; auto.
      + right. rewrite map_app. split; [|apply Exists_app; right; constructor; exact E].
        rewrite app_length, map_length. cbn [length map].
        replace (length rows + 1 - 1)%nat with (length rows) by lia.
        rewrite (repeat_zero _ D). reflexivity.
    - right. rewrite map_app, C. split; [|apply Exists_app; left; exact D].
      destruct rows as [|x rows]; [inversion D|]. reflexivity.
  Qed.

  (** The loading state against the rows read so far. *)
  Definition state_ok (hs : list shape) (rows : list srow) : Prop :=
    NoDup (map h_id hs) /\
    (forall h, In h hs -> shape_ok h (rows_of (h_id h) rows) /\ rows_of (h_id h) rows <> []) /\
    (forall r, In r rows -> In (s_id r) (map h_id hs)).

  Lemma rows_of_snoc : forall id rows (r : srow),
    rows_of id (rows ++ [r]) = rows_of id rows ++ (if s_id r =? id then [r] else []).
  Proof. intros. unfold rows_of. rewrite filter_app. reflexivity. Qed.

  Lemma add_row_ids : forall hs (r : srow),
    map h_id (add_row hs r) = if existsb (Z.eqb (s_id r)) (map h_id hs) then map h_id hs
                              else map h_id hs ++ [s_id r].
  Proof.
    induction hs as [|h hs IH]; intros r; cbn; auto.
    rewrite (Z.eqb_sym (s_id r)).
    destruct (Z.eqb_spec (h_id h) (s_id r)); cbn; [rewrite e; reflexivity|].
    rewrite IH. destruct (existsb _ _); reflexivity.
  Qed.

  Lemma add_row_in : forall hs (r : srow) h, NoDup (map h_id hs) -> In h (add_row hs r) ->
    (In h hs /\ h_id h <> s_id r) \/
    (exists h0, In h0 hs /\ h_id h0 = s_id r /\ h = push_point h0 r) \/
    (~ In (s_id r) (map h_id hs) /\ h = push_point (Shape (s_id r) [] [] []) r).
  Proof.
    induction hs as [|x hs IH]; intros r h ND H; cbn in H.
    - destruct H as [<-|[]]. right; right. split; auto.
    - cbn in ND. apply NoDup_cons_iff in ND. destruct ND as [N1 N2].
      destruct (Z.eqb_spec (h_id x) (s_id r)) as [E|E].
      + destruct H as [<-|H].
        * right; left. exists x. split; [left; reflexivity|]. split; auto.
        * left. split; [right; exact H|]. intro K. apply N1. rewrite E, <- K. apply in_map. exact H.
      + destruct H as [<-|H]; [left; split; [left; reflexivity|exact E]|].
        destruct (IH r h N2 H) as [[A B]|[[h0 [A [B C]]]|[A B]]].
        * left. split; [right; exact A|exact B].
        * right; left. exists h0. split; [right; exact A|]. split; auto.
        * right; right. split; auto. cbn. intros [K|K]; [congruence|tauto].
  Qed.

  Lemma add_row_ok : forall hs rows (r : srow),
    state_ok hs rows -> state_ok (add_row hs r) (rows ++ [r]).
  Proof.
    intros hs rows r [ND [A B]]. split; [|split].
    - rewrite add_row_ids. destruct (existsb _ _) eqn:E; auto.
      apply NoDup_Add with (a := s_id r) (l := map h_id hs); [|].
      { rewrite <- (app_nil_r (map h_id hs)) at 1. apply Add_app. }
      split; auto. intro K.
      assert (existsb (Z.eqb (s_id r)) (map h_id hs) = true); [|congruence].
      apply existsb_exists. exists (s_id r). split; auto. apply Z.eqb_refl.
    - intros h H. destruct (add_row_in _ _ _ ND H) as [[K1 K2]|[[h0 [K1 [K2 K3]]]|[K1 K2]]].
      + rewrite rows_of_snoc. replace (s_id r =? h_id h) with false by (symmetry; apply Z.eqb_neq; congruence).
        rewrite app_nil_r. apply A. exact K1.
      + subst h. cbn [h_id push_point]. rewrite rows_of_snoc, K2, Z.eqb_refl.
        destruct (A h0 K1) as [Q1 Q2]. rewrite K2 in Q1. split; [apply push_point_ok; exact Q1|].
        destruct (rows_of (s_id r) rows); discriminate.
      + subst h. cbn [h_id push_point]. rewrite rows_of_snoc, Z.eqb_refl.
        assert (E : rows_of (s_id r) rows = []).
        { destruct (rows_of (s_id r) rows) as [|x l] eqn:E; auto. exfalso.
          assert (I : In x (rows_of (s_id r) rows)) by (rewrite E; left; reflexivity).
          unfold rows_of in I. apply filter_In in I. destruct I as [I J]. apply Z.eqb_eq in J.
          apply K1. rewrite <- J. apply B. exact I. }
        rewrite E. cbn [app]. split; [|discriminate].
        apply (push_point_ok (Shape (s_id r) [] [] []) [] r).
        split; [reflexivity|]. split; [reflexivity|]. left. split; auto.
    - intros x H. rewrite add_row_ids. apply in_app_or in H.
      assert (In (s_id x) (map h_id hs) \/ x = r) as [K|K].
      { destruct H as [H|[H|[]]]; auto. }
      + destruct (existsb _ _); auto. apply in_or_app. auto.
      + subst x. destruct (existsb _ _) eqn:E.
        * apply existsb_exists in E. destruct E as [y [E1 E2]]. apply Z.eqb_eq in E2. rewrite E2. exact E1.
        * apply in_or_app. right. left. reflexivity.
  Qed.

  Lemma fold_ok : forall rows hs done, state_ok hs done ->
    state_ok (fold_left add_row rows hs) (done ++ rows).
  Proof.
    induction rows as [|r rows IH]; intros hs dn H; cbn.
    - rewrite app_nil_r. exact H.
    - replace (dn ++ r :: rows) with ((dn ++ [r]) ++ rows) by (rewrite <- app_assoc; reflexivity).
      apply IH. apply add_row_ok. exact H.
  Qed.

  Lemma fold_ids : forall (rows : list srow) hs seen, (forall x, In x seen <-> In x (map h_id hs)) ->
    map h_id (fold_left add_row rows hs) = map h_id hs ++ first_ids seen rows.
  Proof.
    induction rows as [|r rows IH]; intros hs seen H; cbn.
    - rewrite app_nil_r. reflexivity.
    - pose proof (add_row_ids hs r) as E.
      assert (X : existsb (Z.eqb (s_id r)) seen = existsb (Z.eqb (s_id r)) (map h_id hs)).
      { apply eq_true_iff_eq. rewrite !existsb_exists. split; intros [x [A B]]; exists x; split; auto; apply H; auto. }
      rewrite X. destruct (existsb (Z.eqb (s_id r)) (map h_id hs)) eqn:F.
      + rewrite (IH _ seen); [rewrite E; reflexivity|]. intro x. rewrite E. apply H.
      + rewrite (IH _ (s_id r :: seen)); [rewrite E, <- app_assoc; reflexivity|].
        intro x. rewrite E, in_app_iff. cbn. rewrite (H x). tauto.
  Qed.

  Lemma is_sorted_ascending : forall l, is_sorted l = true -> ascending l.
  Proof.
    induction l as [|a l IH]; intros H i j L; cbn in L; [lia|].
    assert (T : is_sorted l = true /\ forall k, (k < length l)%nat -> a <= nth k l 0).
    { destruct l as [|b l]; [split; [reflexivity|intros k K; cbn in K; lia]|].
      cbn in H. apply andb_true_iff in H. destruct H as [H1 H2]. split; [exact H2|].
      apply Z.leb_le in H1. intros k K. destruct k; [exact H1|].
      specialize (IH H2 O (Datatypes.S k)). cbn [nth] in IH |- *. cbn in K. 
      assert (Q : (0 < Datatypes.S k < length (b :: l))%nat) by (cbn; lia). specialize (IH Q). lia. }
    destruct T as [T1 T2]. destruct j; [lia|]. destruct i; cbn [nth].
    - apply T2. lia.
    - apply IH; [exact T1|lia].
  Qed.

  Lemma apply_perm_map : forall {A B} (d : A) (f : A -> B) p (l : list A), 
    (forall i, In i p -> (i < length l)%nat) ->
    l <> [] -> apply_permutation p (map f l) = map f (map (fun i => nth i l d) p).
  Proof.
    intros A B d f p l H N. destruct l as [|x l]; [congruence|].
    unfold apply_permutation. cbn [map]. rewrite map_map. apply map_ext_in.
    intros i I. specialize (H i I).
    change (f x :: map f l) with (map f (x :: l)).
    rewrite (nth_indep _ (f x) (f d)); [apply map_nth|]. rewrite map_length. exact H.
  Qed.

  Lemma perm_pick : forall {A} (d : A) (l : list A) p, Permutation p (seq 0 (length l)) ->
    Permutation (map (fun i => nth i l d) p) l.
  Proof.
    intros A d l p H. rewrite (Permutation_map (fun i => nth i l d) H).
    clear. induction l as [|x l IH] using rev_ind; [constructor|].
    rewrite app_length. cbn [length]. rewrite Nat.add_1_r, seq_S, map_app. cbn [map].
    rewrite app_nth2 by lia. replace (0 + length l - length l)%nat with O by lia. cbn [nth].
    apply Permutation_app_tail.
    erewrite map_ext_in; [exact IH|]. intros i I. apply in_seq in I. apply app_nth1. lia.
  Qed.

  (** The shapes loaded from shapes.txt: one per id, in the order of first
      appearance; the points of a shape are the points of its rows by
      ascending sequence number (in file order when that ascends already); the
      distances belong to the points, and are left out exactly when no row has
      one. For any permutation std::sort may pick. *)
  Theorem C79_shape_in_sequence_order :
    (forall l, sorts (sort_perm l) l) ->
    forall rows : list srow,
    map h_id (parse_shapes sort_perm rows) = first_ids [] rows /\
    forall h, In h (parse_shapes sort_perm rows) ->
      exists R : list srow, Permutation R (rows_of (h_id h) rows) /\
        ascending (map s_seq R) /\
        (ascending (map s_seq (rows_of (h_id h) rows)) -> R = rows_of (h_id h) rows) /\
        h_poly h = map s_pt R /\
        ((forall r : srow, In r R -> s_dist r = 0) -> h_dist h = []) /\
        (forall r : srow, In r R -> s_dist r <> 0 -> h_dist h = map s_dist R).
  Proof.
    intros HP rows.
    assert (OK : state_ok (fold_left add_row rows []) ([] ++ rows)).
    { apply fold_ok. split; [constructor|]. split; intros x []. }
    split.
    - unfold parse_shapes. rewrite map_map.
      pose proof (fold_ids rows [] [] ltac:(intro; cbn; tauto)) as E. cbn [map app] in E.
      rewrite <- E. apply map_ext. intro h.
      unfold reorder. destruct (is_sorted _); reflexivity.
    - intros h H. unfold parse_shapes in H. apply in_map_iff in H. destruct H as [h0 [E I]].
      destruct OK as [_ [OK _]]. destruct (OK h0 I) as [[A [B C]] N]. cbn [app] in *.
      assert (ID : h_id h = h_id h0) by (subst h; unfold reorder; destruct (is_sorted _); reflexivity).
      rewrite ID. set (rs := rows_of (h_id h0) rows) in *.
      unfold reorder in E. destruct (is_sorted (h_seq h0)) eqn:ES.
      + subst h. exists rs. split; [reflexivity|]. split; [rewrite <- B; apply is_sorted_ascending; exact ES|].
        split; [reflexivity|]. split; [exact A|]. split.
        * intro Z0. destruct C as [[C1 _]|[_ C2]]; [exact C1|].
          apply Exists_exists in C2. destruct C2 as [r [R1 R2]]. elim R2. auto.
        * intros r R1 R2. destruct C as [[_ C2]|[C1 _]]; [|exact C1].
          rewrite Forall_forall in C2. elim R2. auto.
      + destruct (HP (h_seq h0)) as [P1 P2]. set (p := sort_perm (h_seq h0)) in *.
        destruct rs as [|d0 rs0] eqn:ER; [congruence|]. rewrite <- ER in *.
        assert (NE : rs <> []) by (rewrite ER; discriminate).
        assert (LB : forall i, In i p -> (i < length rs)%nat).
        { intros i Ii. apply (Permutation_in _ P1) in Ii. apply in_seq in Ii. rewrite B, map_length in Ii. lia. }
        assert (PR : Permutation (map (fun i => nth i rs d0) p) rs).
        { apply perm_pick. rewrite B, map_length in P1. exact P1. }
        assert (SQ : map (fun i => nth i (h_seq h0) 0) p = map s_seq (map (fun i => nth i rs d0) p)).
        { rewrite map_map. apply map_ext_in. intros i Ii. rewrite B.
          rewrite (nth_indep _ 0 (s_seq d0)); [apply map_nth|]. rewrite map_length. auto. }
        exists (map (fun i => nth i rs d0) p). subst h. cbn [h_poly h_dist].
        split; [exact PR|]. split; [rewrite <- SQ; exact P2|]. split; [|split; [|split]].
        * intro AS. exfalso. assert (is_sorted (h_seq h0) = true); [|congruence].
          rewrite B. clear - AS. revert AS. generalize (map s_seq rs). induction l as [|a l IH]; intro AS; auto.
          destruct l as [|b l]; auto. cbn [is_sorted]. apply andb_true_iff. split.
          { apply Z.leb_le. apply (AS O 1%nat). cbn. lia. }
          { apply IH. intros i j L. apply (AS (Datatypes.S i) (Datatypes.S j)). cbn in *. lia. }
        * rewrite A. apply apply_perm_map; auto.
        * intro Z0. destruct C as [[C1 _]|[_ C2]]; [rewrite C1; reflexivity|].
          apply Exists_exists in C2. destruct C2 as [r [R1 R2]]. elim R2. apply Z0.
          apply (Permutation_in _ (Permutation_sym PR)). exact R1.
        * intros r R1 R2. apply (Permutation_in _ PR) in R1. destruct C as [[_ C2]|[C1 _]].
          { rewrite Forall_forall in C2. elim R2. auto. }
          { rewrite C1. apply apply_perm_map; auto. }
  Qed.
End Load.

(** ** Matching the stops of a trip to the points of its shape *)
Section Offsets.
  Context {P : Type}.
  Variable best_segment : P -> list P -> nat.
  Variable sqdist : P -> P -> Z.
  (** The nearest segment of a polyline with a segment is one of them. *)
  Hypothesis best_segment_in : forall p l, (2 <= length l)%nat -> (best_segment p l + 1 < length l)%nat.

  (** [k] is the end of the nearest segment that is nearer to [p]; the first
      point when there is no segment. *)
  Definition nearest_end (p : P) (l : list P) (k : nat) : Prop :=
    ((length l < 2)%nat /\ k = O) \/
    ((2 <= length l)%nat /\
     exists x y, nth_error l (best_segment p l) = Some x /\ nth_error l (best_segment p l + 1) = Some y /\
       ((k = best_segment p l /\ sqdist p x <= sqdist p y) \/
        (k = (best_segment p l + 1)%nat /\ sqdist p y < sqdist p x))).

  (** The points at the positions [lo..hi]. *)
  Definition points (l : list P) (lo hi : Z) : list P :=
    firstn (Z.to_nat (hi - lo + 1)) (skipn (Z.to_nat lo) l).

  Lemma get_closest_spec : forall p l, nearest_end p l (get_closest best_segment sqdist p l).
  Proof.
    intros p l. unfold get_closest, nearest_end. destruct (Nat.ltb_spec (length l) 2) as [H|H]; [left; split; auto|].
    right. split; auto. pose proof (best_segment_in p l H) as B.
    exists (nth (best_segment p l) l p), (nth (best_segment p l + 1) l p).
    split; [apply nth_error_nth'; lia|]. split; [apply nth_error_nth'; lia|].
    destruct (Z.leb_spec (sqdist p (nth (best_segment p l) l p)) (sqdist p (nth (best_segment p l + 1) l p)));
      [left|right]; split; auto.
  Qed.

  Lemma nearest_end_lt : forall p l k, nearest_end p l k -> l <> [] -> (k < length l)%nat.
  Proof.
    intros p l k [[H ->]|[H [x [y [A [B [[-> _]|[-> _]]]]]]]] N.
    - destruct l; [congruence|cbn; lia].
    - pose proof (best_segment_in p l H). lia.
    - pose proof (best_segment_in p l H). lia.
  Qed.

  Section Bisect.
    Variable size : Z.
    Variable ms : Z -> Z -> Z -> Z.
    Hypothesis ms_in : forall c st ln, 0 <= st -> 1 <= ln -> st + ln <= size -> st <= ms c st ln <= st + ln - 1.

    (** The offsets of the stops [s0 ..], each inner one set by [ms] between two others. *)
    Definition laid (s0 : Z) (ext : list Z) : Prop :=
      forall i, (0 < i)%nat -> (i + 1 < length ext)%nat ->
      exists l r, (l < i < r)%nat /\ (r < length ext)%nat /\
        s0 + Z.of_nat i = (s0 + Z.of_nat l + (s0 + Z.of_nat r)) / 2 /\
        let lo := nth l ext 0 + (Z.of_nat i - Z.of_nat l) in
        let hi := nth r ext 0 - (Z.of_nat r - Z.of_nat i) in
        0 <= lo <= hi /\ hi < size /\
        nth i ext 0 = ms (s0 + Z.of_nat i) lo (hi - lo + 1).

    Lemma sorted_app : forall l m r a b, StronglySorted Z.lt l -> Forall (fun x => a <= x <= m - 1) l ->
      StronglySorted Z.lt r -> Forall (fun x => m + 1 <= x <= b) r -> a <= m <= b ->
      StronglySorted Z.lt (l ++ [m] ++ r) /\ Forall (fun x => a <= x <= b) (l ++ [m] ++ r).
    Proof.
      induction l as [|x l IH]; intros m r a b SL FL SR FR M; cbn [app].
      - split.
        + constructor; auto. eapply Forall_impl; [|exact FR]. intros; cbn in *; lia.
        + constructor; [lia|]. eapply Forall_impl; [|exact FR]. intros; cbn in *; lia.
      - inversion SL; subst. inversion FL; subst.
        destruct (IH m r a b ltac:(assumption) ltac:(assumption) SR FR M) as [A B]. cbn [app] in A, B.
        split; constructor; auto; try lia.
        apply Forall_app. split; auto. constructor; [lia|].
        eapply Forall_impl; [|exact FR]. intros; cbn in *; lia.
    Qed.

    Lemma bisect_spec : forall fuel s e a b,
      e - s + 1 <= Z.of_nat fuel -> s <= e + 1 -> 0 <= a -> b < size -> e - s <= b - a ->
      let l := bisect fuel ms s e a b in
      length l = Z.to_nat (e - s + 1) /\
      StronglySorted Z.lt l /\ Forall (fun x => a <= x <= b) l /\
      laid (s - 1) ((a - 1) :: l ++ [b + 1]).
    Proof.
      induction fuel as [|f IH]; intros s e a b F SE A B R; cbn [bisect].
      - cbn. replace (e - s + 1) with 0 by lia. repeat split; try constructor.
        intros i I J. cbn in J. lia.
      - destruct (Z.gtb_spec s e) as [G|G].
        + cbn. replace (e - s + 1) with 0 by lia. repeat split; try constructor.
          intros i I J. cbn in J. lia.
        + set (c := (s + e) / 2).
          assert (C : s <= c <= e) by (subst c; split; [apply Z.div_le_lower_bound|apply Z.div_le_upper_bound]; lia).
          set (m := ms c (a + (c - s)) (b - a + 1 - (e - s))).
          assert (M : a + (c - s) <= m <= a + (c - s) + (b - a + 1 - (e - s)) - 1) by (apply ms_in; lia).
          destruct (IH s (c - 1) a (m - 1) ltac:(lia) ltac:(lia) ltac:(lia) ltac:(lia) ltac:(lia)) as [L1 [L2 [L3 L4]]].
          destruct (IH (c + 1) e (m + 1) b ltac:(lia) ltac:(lia) ltac:(lia) ltac:(lia) ltac:(lia)) as [R1 [R2 [R3 R4]]].
          set (L := bisect f ms s (c - 1) a (m - 1)) in *. set (Rr := bisect f ms (c + 1) e (m + 1) b) in *.
          clearbody L Rr.
          replace (m - 1 + 1) with m in L4 by lia. replace (m + 1 - 1) with m in R4 by lia.
          replace (c + 1 - 1) with c in R4 by lia.
          split; [rewrite !app_length, L1, R1; cbn [length]; lia|].
          destruct (sorted_app L m Rr a b L2 L3 R2 R3 ltac:(lia)) as [S1 S2].
          split; [exact S1|]. split; [exact S2|].
          assert (E1 : (a - 1) :: (L ++ [m] ++ Rr) ++ [b + 1] = ((a - 1) :: L ++ [m]) ++ (Rr ++ [b + 1])).
          { cbn. rewrite <- !app_assoc. reflexivity. }
          assert (E2 : (a - 1) :: (L ++ [m] ++ Rr) ++ [b + 1] = ((a - 1) :: L) ++ (m :: Rr ++ [b + 1])).
          { cbn. rewrite <- !app_assoc. reflexivity. }
          set (ext := (a - 1) :: (L ++ [m] ++ Rr) ++ [b + 1]) in *.
          assert (N1 : forall i, (i <= length L + 1)%nat -> nth i ext 0 = nth i ((a - 1) :: L ++ [m]) 0).
          { intros i I. rewrite E1. apply app_nth1. cbn. rewrite app_length. cbn. lia. }
          assert (N2 : forall i, nth (length L + 1 + i) ext 0 = nth i (m :: Rr ++ [b + 1]) 0).
          { intros i. rewrite E2. rewrite app_nth2 by (cbn; lia). f_equal. cbn. lia. }
          assert (LE : length ext = (length L + 1 + (length Rr + 2))%nat).
          { rewrite E2, app_length. cbn. rewrite app_length. cbn. lia. }
          intros i I J.
          destruct (lt_eq_lt_dec i (length L + 1)) as [[K|K]|K].
          * destruct (L4 i I) as [l [r [X1 [X2 [X3 X4]]]]]; [cbn; rewrite app_length; cbn; lia|].
            cbn [length] in X2. rewrite app_length in X2. cbn [length] in X2.
            exists l, r. split; [exact X1|]. split; [lia|]. split; [exact X3|].
            rewrite (N1 l), (N1 r), (N1 i) by lia. exact X4.
          * exists O, (length ext - 1)%nat. split; [lia|]. split; [lia|].
            assert (Li : Z.of_nat i = c - s + 1) by (rewrite K, L1; lia).
            assert (Le : Z.of_nat (length ext - 1) = e - s + 2) by (rewrite LE, L1, R1; lia).
            split; [rewrite Li, Le; replace (s - 1 + Z.of_nat 0 + (s - 1 + (e - s + 2))) with (s + e) by lia; subst c; lia|].
            assert (V0 : nth 0 ext 0 = a - 1) by reflexivity.
            assert (V1 : nth (length ext - 1) ext 0 = b + 1).
            { replace (length ext - 1)%nat with (length L + 1 + (length Rr + 1))%nat by lia. rewrite N2.
              rewrite Nat.add_1_r. cbn [nth]. rewrite app_nth2 by lia. rewrite Nat.sub_diag. reflexivity. }
            assert (V2 : nth i ext 0 = m).
            { rewrite K. rewrite <- (Nat.add_0_r (length L + 1)). rewrite N2. reflexivity. }
            cbv zeta. rewrite V0, V1, V2, Li, Le. cbn [Z.of_nat].
            split; [lia|]. split; [lia|]. unfold m. f_equal; lia.
          * destruct (R4 (i - (length L + 1))%nat) as [l [r [X1 [X2 [X3 X4]]]]]; [lia| |].
            { cbn. rewrite app_length. cbn. lia. }
            cbn [length] in X2. rewrite app_length in X2. cbn [length] in X2.
            exists (length L + 1 + l)%nat, (length L + 1 + r)%nat. split; [lia|]. split; [lia|].
            assert (LL : Z.of_nat (length L) = c - s) by (rewrite L1; lia).
            assert (Hi : s - 1 + Z.of_nat i = c + Z.of_nat (i - (length L + 1))) by lia.
            split; [rewrite Hi, X3; f_equal; lia|].
            assert (NI : nth i ext 0 = nth (i - (length L + 1)) (m :: Rr ++ [b + 1]) 0).
            { rewrite <- N2. f_equal. lia. }
            cbv zeta in X4 |- *. rewrite !N2, NI, Hi.
            replace (Z.of_nat i - Z.of_nat (length L + 1 + l)) with (Z.of_nat (i - (length L + 1)) - Z.of_nat l) by lia.
            replace (Z.of_nat (length L + 1 + r) - Z.of_nat i) with (Z.of_nat r - Z.of_nat (i - (length L + 1))) by lia.
            exact X4.
    Qed.
  End Bisect.

  Lemma strong_nth : forall l i j, StronglySorted Z.lt l -> (i < j < length l)%nat -> nth i l 0 < nth j l 0.
  Proof.
    induction l as [|x l IH]; intros i j SS L; cbn in L; [lia|]. inversion SS; subst.
    destruct j; [lia|]. destruct i; cbn [nth].
    - rewrite Forall_forall in H2. apply H2. apply nth_In. lia.
    - apply IH; auto. lia.
  Qed.

  (** Stops matched by their position (no distances in the feed): one point
      per stop, in order, from the first to the last point of the shape, no
      point twice; an inner stop is matched within the points that leave one
      point to each stop between it and two stops [l], [r] around it. *)
  Theorem C79_offsets_by_stops : forall shp stops dflt,
    (2 <= length stops)%nat -> (length stops <= length shp)%nat ->
    let offs := get_offsets_by_stops best_segment sqdist shp stops dflt in
    length offs = length stops /\
    nth 0 offs 0 = 0 /\
    nth (length stops - 1) offs 0 = Z.of_nat (length shp) - 1 /\
    strictly_ascending offs /\
    forall i p, (0 < i)%nat -> (i + 1 < length stops)%nat -> nth_error stops i = Some p ->
      exists l r k, (l < i < r)%nat /\ (r < length stops)%nat /\ i = Nat.div (l + r) 2 /\
        let lo := nth l offs 0 + (Z.of_nat i - Z.of_nat l) in
        let hi := nth r offs 0 - (Z.of_nat r - Z.of_nat i) in
        nearest_end p (points shp lo hi) k /\
        nth i offs 0 = lo + Z.of_nat k.
  Proof.
    intros shp stops dflt H2 HL. unfold get_offsets_by_stops.
    destruct (Z.ltb_spec (Z.of_nat (length stops)) 2); [lia|].
    set (size := Z.of_nat (length shp)). set (n := Z.of_nat (length stops)).
    set (pos := fun s => nth (Z.to_nat s) stops dflt).
    set (ms := match_stop best_segment sqdist shp pos).
    assert (LP : forall st ln, 0 <= st -> 1 <= ln -> st + ln <= size -> length (subspan shp st ln) = Z.to_nat ln).
    { intros st ln A B C. unfold subspan. rewrite firstn_length, skipn_length. lia. }
    assert (MS : forall c st ln, 0 <= st -> 1 <= ln -> st + ln <= size -> st <= ms c st ln <= st + ln - 1).
    { intros c st ln A B C. unfold ms, match_stop.
      pose proof (nearest_end_lt _ _ _ (get_closest_spec (pos c) (subspan shp st ln))) as Q.
      rewrite LP in Q by auto.
      assert (subspan shp st ln <> []). { intro E. specialize (LP st ln A B C). rewrite E in LP. cbn in LP. lia. }
      specialize (Q H0). lia. }
    destruct (bisect_spec size ms MS (length stops) 1 (n - 2) 1 (size - 2)) as [B1 [B2 [B3 B4]]]; try lia.
    set (l := bisect (length stops) ms 1 (n - 2) 1 (size - 2)) in *. clearbody l.
    cbn [app] in B4 |- *. replace (1 - 1) with 0 in B4 by lia. replace (size - 2 + 1) with (size - 1) in B4 by lia.
    assert (LE : length (0 :: l ++ [size - 1]) = length stops).
    { cbn. rewrite app_length, B1. cbn. lia. }
    split; [exact LE|]. split; [reflexivity|]. split.
    { replace (length stops - 1)%nat with (Datatypes.S (length l)) by (rewrite <- LE; cbn; rewrite app_length; cbn; lia).
      cbn [nth]. rewrite app_nth2 by lia. rewrite Nat.sub_diag. reflexivity. }
    split.
    { intros i j L. apply strong_nth; [|exact L]. constructor.
      - clear - B2 B3. induction l as [|x l IH]; cbn; [repeat constructor|].
        inversion B2; subst. inversion B3; subst. constructor; auto.
        apply Forall_app. split; auto. constructor; [lia|constructor].
      - apply Forall_app. split; [eapply Forall_impl; [|exact B3]; intros; cbn in *; lia|].
        constructor; [lia|constructor]. }
    intros i p I J NP. destruct (B4 i I) as [a [b [X1 [X2 [X3 [X4 [X5 X6]]]]]]]; [rewrite LE; exact J|].
    exists a, b. set (lo := nth a (0 :: l ++ [size - 1]) 0 + _) in *. set (hi := nth b (0 :: l ++ [size - 1]) 0 - _) in *.
    exists (get_closest best_segment sqdist p (points shp lo hi)).
    split; [exact X1|]. split; [rewrite <- LE; exact X2|]. split.
    { apply Nat2Z.inj. rewrite Nat2Z.inj_div, Nat2Z.inj_add. change (Z.of_nat 2) with 2. rewrite <- (Z.add_0_l (Z.of_nat i)). rewrite X3. f_equal; lia. }
    cbv zeta. split; [apply get_closest_spec|]. rewrite X6. unfold ms, match_stop.
    assert (PE : pos (0 + Z.of_nat i) = p).
    { unfold pos. replace (Z.to_nat (0 + Z.of_nat i)) with i by lia. apply nth_error_nth. exact NP. }
    rewrite PE. reflexivity.
  Qed.
End Offsets.

(** ** Matching by distance travelled *)
Lemma lower_bound_range : forall fuel l first len d, 0 <= len ->
  first <= lower_bound fuel l first len d <= first + len.
Proof.
  induction fuel as [|f IH]; intros l first len d H; cbn [lower_bound]; [lia|].
  destruct (Z.leb_spec len 0); [lia|].
  assert (D : 0 <= len / 2 < len) by (split; [apply Z.div_pos|apply Z.div_lt]; lia).
  destruct (Z.ltb_spec (nth (Z.to_nat (first + len / 2)) l 0) d).
  - specialize (IH l (first + len / 2 + 1) (len - len / 2 - 1) d ltac:(lia)). lia.
  - specialize (IH l first (len / 2) d ltac:(lia)). lia.
Qed.

Lemma asc_nth : forall l i j, ascending l -> 0 <= i <= j -> j < Z.of_nat (length l) ->
  nth (Z.to_nat i) l 0 <= nth (Z.to_nat j) l 0.
Proof.
  intros l i j A L B. destruct (Z.eq_dec i j); [subst; lia|]. apply A. lia.
Qed.

Lemma lower_bound_sorted : forall fuel l first len d, ascending l ->
  0 <= first -> 0 <= len <= Z.of_nat fuel -> first + len <= Z.of_nat (length l) ->
  let o := lower_bound fuel l first len d in
  (forall j, first <= j < o -> nth (Z.to_nat j) l 0 < d) /\
  (o = first + len \/ d <= nth (Z.to_nat o) l 0).
Proof.
  induction fuel as [|f IH]; intros l first len d A F0 FL B; cbn [lower_bound].
  - split; [intros; lia|]. left. lia.
  - destruct (Z.leb_spec len 0); [split; [intros; lia|left; lia]|].
    assert (D : 0 <= len / 2 < len) by (split; [apply Z.div_pos|apply Z.div_lt]; lia).
    destruct (Z.ltb_spec (nth (Z.to_nat (first + len / 2)) l 0) d) as [Q|Q].
    + destruct (IH l (first + len / 2 + 1) (len - len / 2 - 1) d A ltac:(lia) ltac:(lia) ltac:(lia)) as [X Y].
      split.
      * intros j J. destruct (Z_le_dec j (first + len / 2)).
        { pose proof (asc_nth l j (first + len / 2) A ltac:(lia) ltac:(lia)). lia. }
        { apply X. lia. }
      * destruct Y as [Y|Y]; [left; lia|right; exact Y].
    + destruct (IH l first (len / 2) d A ltac:(lia) ltac:(lia) ltac:(lia)) as [X Y].
      split; [exact X|]. destruct Y as [Y|Y]; [|right; exact Y]. right. rewrite Y. exact Q.
Qed.

Lemma offsets_by_dist_spec : forall ds edges b,
  0 <= b <= Z.of_nat (length edges) - 1 ->
  let offs := offsets_by_dist ds edges b in
  length offs = length ds /\
  (forall k, (k < length ds)%nat ->
    let prev := match k with O => b | Datatypes.S k' => nth k' offs 0 end in
    prev <= nth k offs 0 <= Z.of_nat (length edges) - 1 /\
    (ascending edges -> first_reaching edges prev (nth k ds 0) (nth k offs 0))).
Proof.
  induction ds as [|d ds IH]; intros edges b B; cbn [offsets_by_dist]; [split; [reflexivity|intros k K; cbn in K; lia]|].
  set (o := lower_bound (length edges) edges b (Z.of_nat (length edges) - 1 - b) d).
  assert (O1 : b <= o <= Z.of_nat (length edges) - 1).
  { pose proof (lower_bound_range (length edges) edges b (Z.of_nat (length edges) - 1 - b) d ltac:(lia)). fold o in H. lia. }
  destruct (IH edges o ltac:(lia)) as [I1 I2].
  split; [cbn; rewrite I1; reflexivity|].
  intros k K. destruct k as [|k]; cbn [nth].
  - split; [exact O1|]. intro A. unfold first_reaching. cbv zeta. split; [exact O1|].
    destruct (lower_bound_sorted (length edges) edges b (Z.of_nat (length edges) - 1 - b) d A ltac:(lia) ltac:(lia) ltac:(lia)) as [X Y].
    fold o in X, Y. split; [exact X|]. destruct Y as [Y|Y]; [left; lia|right; exact Y].
  - destruct (I2 k) as [J1 J2]; [cbn in K; lia|]. destruct k as [|k]; split; assumption.
Qed.

(** With distances: one point per stop, never going back; when the distances
    of the shape ascend, the point of a stop is the first, not before the
    point of the stop before it, that reaches the distance of the stop. *)
Theorem C79_offsets_by_distance : forall ds edges, edges <> [] ->
  let offs := get_offsets_by_dist_traveled ds edges in
  length offs = length ds /\
  forall k, (k < length ds)%nat ->
    let prev := match k with O => 0 | Datatypes.S k' => nth k' offs 0 end in
    prev <= nth k offs 0 <= Z.of_nat (length edges) - 1 /\
    (ascending edges -> first_reaching edges prev (nth k ds 0) (nth k offs 0)).
Proof.
  intros ds edges N. apply offsets_by_dist_spec. destruct edges; [congruence|cbn [length]; lia].
Qed.

(** When the distances of the stops ascend as well, it is the first point of
    the whole shape that reaches the distance. *)
Corollary C79_first_point_reaching : forall ds edges, edges <> [] -> ascending edges -> ascending ds ->
  forall k, (k < length ds)%nat ->
  first_reaching edges 0 (nth k ds 0) (nth k (get_offsets_by_dist_traveled ds edges) 0).
Proof.
  intros ds edges N A AD. destruct (C79_offsets_by_distance ds edges N) as [L H]. cbv zeta in H.
  set (offs := get_offsets_by_dist_traveled ds edges) in *.
  induction k as [|k IH]; intros K; [apply (H O K); exact A|].
  destruct (H _ K) as [R F]. specialize (F A). destruct F as [F1 [F2 F3]].
  destruct (IH ltac:(lia)) as [G1 [G2 G3]].
  split; [lia|]. split; [|exact F3].
  intros j J. destruct (Z_lt_dec j (nth k offs 0)).
  - pose proof (G2 j ltac:(lia)). pose proof (AD k (Datatypes.S k) ltac:(lia)). lia.
  - apply F2. lia.
Qed.

(** ** Trips *)
Lemma seq_lt_irrefl : forall a, seq_lt a a = false.
Proof. induction a as [|x a IH]; cbn; auto. rewrite Z.ltb_irrefl. exact IH. Qed.

Lemma seq_lt_trans : forall a b c, seq_lt a b = true -> seq_lt b c = true -> seq_lt a c = true.
Proof.
  induction a as [|x a IH]; intros [|y b] [|z c]; cbn; try congruence; auto.
  destruct (Z.ltb_spec x y), (Z.ltb_spec y x), (Z.ltb_spec y z), (Z.ltb_spec z y), (Z.ltb_spec x z), (Z.ltb_spec z x);
    intros; try congruence; try lia; eauto.
Qed.

Lemma seq_lt_total : forall a b, seq_lt a b = false -> seq_lt b a = false -> a = b.
Proof.
  induction a as [|x a IH]; intros [|y b]; cbn; try congruence; auto.
  destruct (Z.ltb_spec x y), (Z.ltb_spec y x); intros; try congruence; try lia.
  f_equal; [lia|]. apply IH; assumption.
Qed.

Notation entry := (list Z * list Z)%type.
Definition elt (x y : entry) : Prop := seq_lt (fst x) (fst y) = true.

Lemma insert_in : forall t (x y : entry), StronglySorted elt t ->
  (In y (insert_sorted x t) <-> In y t \/ (y = x /\ ~ In (fst x) (map fst t))).
Proof.
  induction t as [|z t IH]; intros x y SS; cbn [insert_sorted].
  - cbn. intuition.
  - inversion SS; subst.
    destruct (seq_lt (fst z) (fst x)) eqn:E1.
    + cbn [In map]. rewrite (IH x y H1). split.
      * intros [A|[A|[A B]]]; auto. right. split; auto. intros [C|C]; auto.
        rewrite C, seq_lt_irrefl in E1. congruence.
      * intros [[A|A]|[A B]]; [auto|auto|]. right; right. split; [exact A|]. intro C. apply B. right. exact C.
    + destruct (seq_lt (fst x) (fst z)) eqn:E2.
      * cbn [In map]. split.
        { intros [A|[A|A]]; auto. right. split; auto. intros [C|C].
          - rewrite C, seq_lt_irrefl in E2. congruence.
          - apply in_map_iff in C. destruct C as [w [C D]]. rewrite Forall_forall in H2. specialize (H2 w D).
            unfold elt in H2. pose proof (seq_lt_trans _ _ _ E2 H2) as Q. rewrite C, seq_lt_irrefl in Q. congruence. }
        { intros [[A|A]|[A B]]; auto; subst; auto. }
      * pose proof (seq_lt_total _ _ E1 E2) as Q. split; [auto|]. intros [A|[_ B]]; auto.
        elim B. left. exact Q.
Qed.

Lemma insert_sorted_sorted : forall t (x : entry), StronglySorted elt t -> StronglySorted elt (insert_sorted x t).
Proof.
  induction t as [|z t IH]; intros x SS; cbn [insert_sorted]; [repeat constructor|].
  inversion SS; subst. destruct (seq_lt (fst z) (fst x)) eqn:E1.
  - constructor; auto. apply Forall_forall. intros y I. apply insert_in in I; auto.
    destruct I as [I|[-> _]]; [rewrite Forall_forall in H2; auto|exact E1].
  - destruct (seq_lt (fst x) (fst z)) eqn:E2; auto. constructor; auto. constructor; auto.
    eapply Forall_impl; [|exact H2]. intros y L. eapply seq_lt_trans; [exact E2|exact L].
Qed.

Lemma find_task_in : forall t q ds, StronglySorted elt t -> In (q, ds) t -> find_task q t = Some (q, ds).
Proof.
  induction t as [|z t IH]; intros q ds SS I; [destruct I|]. inversion SS; subst. cbn [find_task].
  destruct I as [->|I].
  - cbn [fst]. rewrite seq_lt_irrefl. reflexivity.
  - rewrite Forall_forall in H2. specialize (H2 _ I). unfold elt in H2. cbn [fst] in H2. rewrite H2. auto.
Qed.

(** Trips of the same shape with the same stops. *)
Definition alike (sh : nat) (q : list Z) (x : trip) : bool :=
  match t_shape x with
  | Some s => Nat.eqb s sh && (if list_eq_dec Z.eq_dec (t_stops x) q then true else false)
  | None => false
  end.

(** The first trip of the feed with the shape and the stops. *)
Definition first_alike (sh : nat) (q : list Z) (trips : list trip) (x : trip) : Prop :=
  exists pre post, trips = pre ++ x :: post /\ alike sh q x = true /\
    forall y, In y pre -> alike sh q y = false.

Definition step (sh : nat) (t : list entry) (tr : trip) : list entry :=
  match t_shape tr with
  | Some s => if Nat.eqb s sh then insert_sorted (t_stops tr, t_dist tr) t else t
  | None => t
  end.

Lemma step_sorted : forall sh trips t, StronglySorted elt t -> StronglySorted elt (fold_left (step sh) trips t).
Proof.
  induction trips as [|x trips IH]; intros t SS; cbn [fold_left]; auto. apply IH. unfold step.
  destruct (t_shape x) as [s|]; auto. destruct (Nat.eqb s sh); auto. apply insert_sorted_sorted. exact SS.
Qed.

Lemma step_keeps : forall sh trips t y, StronglySorted elt t -> In y t -> In y (fold_left (step sh) trips t).
Proof.
  induction trips as [|x trips IH]; intros t y SS I; cbn [fold_left]; auto.
  apply IH; [apply (step_sorted sh [x] t SS)|]. unfold step.
  destruct (t_shape x) as [s|]; auto. destruct (Nat.eqb s sh); auto. apply insert_in; auto.
Qed.

Lemma step_fresh : forall sh q trips t, StronglySorted elt t -> ~ In q (map fst t) ->
  (forall y, In y trips -> alike sh q y = false) -> ~ In q (map fst (fold_left (step sh) trips t)).
Proof.
  induction trips as [|x trips IH]; intros t SS N A; cbn [fold_left]; auto.
  apply IH; [apply (step_sorted sh [x] t SS)| |intros y I; apply A; right; exact I].
  specialize (A x (or_introl eq_refl)). unfold alike in A. unfold step.
  destruct (t_shape x) as [s|]; auto. destruct (Nat.eqb s sh); auto. cbn in A.
  destruct (list_eq_dec Z.eq_dec (t_stops x) q) as [E|E]; [discriminate|].
  intro I. apply in_map_iff in I. destruct I as [y [I1 I2]]. apply insert_in in I2; auto.
  destruct I2 as [I2|[-> _]]; [apply N; rewrite <- I1; apply in_map; exact I2|]. apply E. exact I1.
Qed.

Lemma task_of_first : forall sh q trips x, first_alike sh q trips x ->
  find_task q (task_of trips sh) = Some (q, t_dist x).
Proof.
  intros sh q trips x [pre [post [-> [A B]]]]. apply find_task_in.
  - apply (step_sorted sh (pre ++ x :: post) []). constructor.
  - change (task_of (pre ++ x :: post) sh) with (fold_left (step sh) (pre ++ x :: post) []).
    rewrite fold_left_app. cbn [fold_left].
    assert (SP : StronglySorted elt (fold_left (step sh) pre [])) by (apply step_sorted; constructor).
    apply step_keeps; [apply (step_sorted sh [x] _ SP)|].
    unfold alike in A. unfold step at 1. destruct (t_shape x) as [s|]; [|discriminate].
    apply andb_true_iff in A. destruct A as [A1 A2]. rewrite A1.
    destruct (list_eq_dec Z.eq_dec (t_stops x) q) as [E|E]; [|discriminate].
    apply insert_in; auto. right. rewrite E. split; auto. cbn [fst].
    apply step_fresh; auto; constructor.
Qed.

Lemma first_alike_ex : forall trips sh q x, In x trips -> alike sh q x = true ->
  exists y, first_alike sh q trips y.
Proof.
  induction trips as [|z trips IH]; intros sh q x I A; [destruct I|].
  destruct (alike sh q z) eqn:E.
  - exists z, [], trips. split; [reflexivity|]. split; [exact E|]. intros y [].
  - destruct I as [->|I]; [congruence|]. destruct (IH sh q x I A) as [y [pre [post [E1 [E2 E3]]]]].
    exists y, (z :: pre), post. split; [rewrite E1; reflexivity|]. split; auto.
    intros w [<-|W]; auto.
Qed.

Section Trips.
  Context {P : Type}.
  Variable sort_perm : list Z -> list nat.
  Hypothesis sort_perm_sorts : forall l, sorts (sort_perm l) l.
  Variable best_segment : P -> list P -> nat.
  Variable sqdist : P -> P -> Z.
  Hypothesis best_segment_in : forall p l, (2 <= length l)%nat -> (best_segment p l + 1 < length l)%nat.
  Variable loc : Z -> P.
  Variable dflt : P.
  Notation srow := (srow P).

  Definition nondescending (l : list Z) : Prop :=
    forall i j, (i <= j < length l)%nat -> nth i l 0 <= nth j l 0.

  Lemma dist_nondescending : forall ds edges, edges <> [] -> 
    nondescending (get_offsets_by_dist_traveled ds edges) /\
    forall k, (k < length ds)%nat -> 0 <= nth k (get_offsets_by_dist_traveled ds edges) 0 < Z.of_nat (length edges).
  Proof.
    intros ds edges N. destruct (C79_offsets_by_distance ds edges N) as [L H]. cbv zeta in H.
    set (offs := get_offsets_by_dist_traveled ds edges) in *.
    assert (M : nondescending offs).
    { intros i j [IJ J]. induction IJ as [|j IJ IH]; [lia|]. specialize (IH ltac:(lia)).
      destruct (H (Datatypes.S j) ltac:(lia)) as [Q _]. lia. }
    split; auto. intros k K. destruct (H k K) as [Q1 _]. split; [|lia].
    destruct (H O ltac:(lia)) as [Q0 _]. pose proof (M O k ltac:(lia)). lia.
  Qed.

  (** The shape stored for a trip: the offsets come from the positions of its
      stops, or from the distances of the first trip of the feed with the same
      shape and the same stops; the part of the shape given for the stops
      [from, to) is the run of points from the point of stop [from] to the
      point of stop [to - 1]. *)
  Theorem C79_shape_of_trip : forall (rows : list srow) trips tr sh h,
    let shapes := parse_shapes sort_perm rows in
    In tr trips -> t_shape tr = Some sh -> nth_error shapes sh = Some h ->
    (forall x, In x trips -> t_dist x = [] \/ length (t_dist x) = length (t_stops x)) ->
    (2 <= length (t_stops tr))%nat ->
    let part := get_shape best_segment sqdist shapes loc dflt trips tr in
    ((length (h_poly h) < length (t_stops tr))%nat -> forall from to, part from to = []) /\
    ((length (t_stops tr) <= length (h_poly h))%nat ->
     exists tr0 offs, first_alike sh (t_stops tr) trips tr0 /\
       (h_dist h = [] \/ t_dist tr0 = [] ->
        offs = get_offsets_by_stops best_segment sqdist (h_poly h) (map loc (t_stops tr)) dflt) /\
       (h_dist h <> [] -> t_dist tr0 <> [] ->
        offs = get_offsets_by_dist_traveled (t_dist tr0) (h_dist h)) /\
       length offs = length (t_stops tr) /\ nondescending offs /\
       (forall k, (k < length offs)%nat -> 0 <= nth k offs 0 < Z.of_nat (length (h_poly h))) /\
       forall from to, (from < to <= length (t_stops tr))%nat ->
         part from to = points (h_poly h) (nth from offs 0) (nth (to - 1) offs 0)).
  Proof.
    intros rows trips tr sh h shapes IN TS NE DL L2. cbv zeta.
    destruct (first_alike_ex trips sh (t_stops tr) tr IN) as [tr0 FA].
    { unfold alike. rewrite TS, Nat.eqb_refl. destruct (list_eq_dec _ _ _); [reflexivity|congruence]. }
    pose proof (task_of_first _ _ _ _ FA) as FT.
    assert (TO : trip_offsets best_segment sqdist shapes loc dflt trips tr =
                 match offsets_of best_segment sqdist (h_poly h) (h_dist h) (map loc (t_stops tr)) (t_dist tr0) dflt with
                 | [] => None | offs => Some (sh, offs) end).
    { unfold trip_offsets. rewrite TS, FT, NE. reflexivity. }
    split.
    - intros S from to. unfold get_shape. rewrite TO. unfold offsets_of. rewrite map_length.
      destruct (Nat.ltb_spec (length (h_poly h)) (length (t_stops tr))); [reflexivity|lia].
    - intros S. set (offs := offsets_of best_segment sqdist (h_poly h) (h_dist h) (map loc (t_stops tr)) (t_dist tr0) dflt) in *.
      assert (D0 : t_dist tr0 = [] \/ length (t_dist tr0) = length (t_stops tr)).
      { destruct FA as [pre [post [E1 [E2 _]]]].
        assert (E3 : t_stops tr0 = t_stops tr).
        { unfold alike in E2. destruct (t_shape tr0); [|discriminate]. apply andb_true_iff in E2.
          destruct E2 as [_ E2]. destruct (list_eq_dec _ _ _); [assumption|discriminate]. }
        rewrite <- E3. apply DL. rewrite E1. apply in_or_app. right. left. reflexivity. }
      assert (HL : h_dist h = [] \/ length (h_dist h) = length (h_poly h)).
      { destruct (C79_shape_in_sequence_order sort_perm sort_perm_sorts rows) as [_ Q].
        destruct (Q h (nth_error_In _ _ NE)) as [R [_ [_ [_ [Q1 [Q2 Q3]]]]]].
        destruct (Forall_Exists_dec (fun r : srow => s_dist r = 0) (fun r => Z.eq_dec (s_dist r) 0) R) as [F|F].
        - left. apply Q2. apply Forall_forall. exact F.
        - right. apply Exists_exists in F. destruct F as [r [F1 F2]].
          rewrite (Q3 r F1 F2), Q1, !map_length. reflexivity. }
      assert (OE : (h_dist h = [] \/ t_dist tr0 = [] ->
        offs = get_offsets_by_stops best_segment sqdist (h_poly h) (map loc (t_stops tr)) dflt) /\
        (h_dist h <> [] -> t_dist tr0 <> [] -> offs = get_offsets_by_dist_traveled (t_dist tr0) (h_dist h))).
      { unfold offs, offsets_of. rewrite map_length.
        destruct (Nat.ltb_spec (length (h_poly h)) (length (t_stops tr))); [lia|].
        split.
        - intros [-> | ->]; [reflexivity|]. destruct (h_dist h); reflexivity.
        - intros N1 N2. destruct (h_dist h); [congruence|]. destruct (t_dist tr0); [congruence|]. reflexivity. }
      assert (OK : length offs = length (t_stops tr) /\ nondescending offs /\
        (forall k, (k < length offs)%nat -> 0 <= nth k offs 0 < Z.of_nat (length (h_poly h)))).
      { destruct OE as [O1 O2].
        assert (CASE : (h_dist h = [] \/ t_dist tr0 = []) \/ (h_dist h <> [] /\ t_dist tr0 <> [])).
        { destruct (h_dist h); [left; left; reflexivity|]. destruct (t_dist tr0); [left; right; reflexivity|].
          right. split; discriminate. }
        destruct CASE as [CASE|[N1 N2]].
        - rewrite (O1 CASE).
          destruct (C79_offsets_by_stops best_segment sqdist best_segment_in (h_poly h) (map loc (t_stops tr)) dflt)
            as [A1 [A2 [A3 [A4 _]]]]; [rewrite map_length; exact L2|rewrite map_length; exact S|].
          set (o := get_offsets_by_stops best_segment sqdist (h_poly h) (map loc (t_stops tr)) dflt) in *.
          rewrite map_length in A1, A3. split; [exact A1|].
          assert (M : nondescending o).
          { intros i j [I J]. destruct (Nat.eq_dec i j); [subst; lia|]. pose proof (A4 i j ltac:(lia)). lia. }
          split; [exact M|]. intros k K. pose proof (M O k ltac:(lia)). pose proof (M k (length (t_stops tr) - 1)%nat ltac:(lia)). lia.
        - rewrite (O2 N1 N2). destruct D0 as [D0|D0]; [congruence|]. destruct HL as [HL|HL]; [congruence|].
          destruct (dist_nondescending (t_dist tr0) (h_dist h) N1) as [M1 M2].
          destruct (C79_offsets_by_distance (t_dist tr0) (h_dist h) N1) as [M3 _].
          split; [congruence|]. split; [exact M1|]. intros k K. rewrite <- HL. apply M2. congruence. }
      exists tr0, offs. split; [exact FA|]. split; [apply OE|]. split; [apply OE|].
      destruct OK as [K1 [K2 K3]]. split; [exact K1|]. split; [exact K2|]. split; [exact K3|].
      intros from to FT'. unfold get_shape. rewrite TO.
      destruct offs as [|o offs']; [cbn in K1; lia|]. rewrite NE. reflexivity.
  Qed.

  Lemma skipn_add : forall {A} (l : list A) a b, skipn (a + b) l = skipn b (skipn a l).
  Proof. induction l as [|x l IH]; intros a b; destruct a; cbn; auto. destruct b; reflexivity. Qed.

  Lemma points_join : forall (l : list P) a b c, 0 <= a <= b -> b <= c -> c < Z.of_nat (length l) ->
    points l a c = points l a b ++ tl (points l b c).
  Proof.
    intros l a b c A B C. unfold points.
    replace (Z.to_nat b) with (Z.to_nat a + Z.to_nat (b - a))%nat by lia.
    rewrite skipn_add. set (m := skipn (Z.to_nat a) l).
    assert (LM : (Z.to_nat (c - a) < length m)%nat) by (subst m; rewrite skipn_length; lia).
    replace (Z.to_nat (c - a + 1)) with (Z.to_nat (b - a) + Datatypes.S (Z.to_nat (c - b)))%nat by lia.
    replace (Z.to_nat (b - a + 1)) with (Z.to_nat (b - a) + 1)%nat by lia.
    replace (Z.to_nat (c - b + 1)) with (Datatypes.S (Z.to_nat (c - b))) by lia.
    assert (LB : (Z.to_nat (b - a) < length m)%nat) by lia.
    generalize dependent (Z.to_nat (c - b)). generalize dependent (Z.to_nat (b - a)). clearbody m. clear.
    intros n H k. revert n H k. induction m as [|x m IH]; intros n H k; [cbn in H; lia|].
    destruct n as [|n]; cbn [Nat.add firstn skipn tl app].
    - destruct k; reflexivity.
    - f_equal. apply IH. cbn in H. lia.
  Qed.

  (** The parts for a stretch of a trip join: [from..to) is [from..mid] followed
      by [mid..to), with the common point once; no part is empty. *)
  Theorem C79_parts_join : forall (rows : list srow) trips tr sh h,
    let shapes := parse_shapes sort_perm rows in
    In tr trips -> t_shape tr = Some sh -> nth_error shapes sh = Some h ->
    (forall x, In x trips -> t_dist x = [] \/ length (t_dist x) = length (t_stops x)) ->
    (2 <= length (t_stops tr) <= length (h_poly h))%nat ->
    let part := get_shape best_segment sqdist shapes loc dflt trips tr in
    (forall from to, (from < to <= length (t_stops tr))%nat -> part from to <> []) /\
    (forall from mid to, (from <= mid < to)%nat -> (to <= length (t_stops tr))%nat ->
       part from to = part from (mid + 1)%nat ++ tl (part mid to)).
  Proof.
    intros rows trips tr sh h shapes IN TS NE DL [L2 S]. cbv zeta.
    destruct (C79_shape_of_trip rows trips tr sh h IN TS NE DL L2) as [_ Q].
    destruct (Q S) as [tr0 [offs [_ [_ [_ [K1 [K2 [K3 K4]]]]]]]]. split.
    - intros from to FT E. rewrite K4 in E by exact FT. unfold points in E.
      apply (f_equal (@length P)) in E. rewrite firstn_length, skipn_length in E. cbn [length] in E.
      pose proof (K3 from ltac:(lia)). pose proof (K3 (to - 1)%nat ltac:(lia)). pose proof (K2 from (to - 1)%nat ltac:(lia)). lia.
    - intros from mid to FM T. rewrite !K4 by lia. replace (mid + 1 - 1)%nat with mid by lia.
      apply points_join.
      + pose proof (K3 from ltac:(lia)). pose proof (K2 from mid ltac:(lia)). lia.
      + apply K2. lia.
      + apply K3. lia.
  Qed.

  (** Without distances the whole trip covers the whole shape, and each two
      stops in a row have at least two points. *)
  Theorem C79_whole_shape : forall (rows : list srow) trips tr sh h,
    let shapes := parse_shapes sort_perm rows in
    In tr trips -> t_shape tr = Some sh -> nth_error shapes sh = Some h ->
    (forall x, In x trips -> t_dist x = [] \/ length (t_dist x) = length (t_stops x)) ->
    (2 <= length (t_stops tr) <= length (h_poly h))%nat ->
    (forall r, In r (rows_of (h_id h) rows) -> s_dist r = 0) ->
    let part := get_shape best_segment sqdist shapes loc dflt trips tr in
    part O (length (t_stops tr)) = h_poly h /\
    forall i, (i + 1 < length (t_stops tr))%nat -> (2 <= length (part i (i + 2)%nat))%nat.
  Proof.
    intros rows trips tr sh h shapes IN TS NE DL [L2 S] Z0. cbv zeta.
    destruct (C79_shape_of_trip rows trips tr sh h IN TS NE DL L2) as [_ Q].
    destruct (Q S) as [tr0 [offs [_ [K0 [_ [K1 [K2 [K3 K4]]]]]]]].
    assert (HD : h_dist h = []).
    { destruct (C79_shape_in_sequence_order sort_perm sort_perm_sorts rows) as [_ Q'].
      destruct (Q' h (nth_error_In _ _ NE)) as [R [PR [_ [_ [_ [Q2 _]]]]]].
      apply Q2. intros r I. apply Z0. apply (Permutation_in _ PR). exact I. }
    specialize (K0 (or_introl HD)).
    destruct (C79_offsets_by_stops best_segment sqdist best_segment_in (h_poly h) (map loc (t_stops tr)) dflt)
            as [A1 [A2 [A3 [A4 _]]]]; [rewrite map_length; exact L2|rewrite map_length; exact S|].
    rewrite <- K0 in A1, A2, A3, A4. rewrite map_length in A1, A3. split.
    - rewrite K4 by lia. rewrite A2, A3. unfold points. cbn [Z.to_nat skipn].
      apply firstn_all2. lia.
    - intros i I. rewrite K4 by lia. replace (i + 2 - 1)%nat with (i + 1)%nat by lia. unfold points.
      rewrite firstn_length, skipn_length. pose proof (A4 i (i + 1)%nat ltac:(lia)).
      pose proof (K3 i ltac:(lia)). pose proof (K3 (i + 1)%nat ltac:(lia)). lia.
  Qed.
End Trips.

(** ** Examples *)
Module Shapes_Examples.
  (** A sorting permutation: the positions inserted by their values. *)
  Fixpoint ins (v : nat -> Z) (i : nat) (p : list nat) : list nat :=
    match p with
    | [] => [i]
    | j :: t => if v i <=? v j then i :: p else j :: ins v i t
    end.
  Definition positions (l : list Z) : list nat :=
    fold_right (ins (fun i => nth i l 0)) [] (seq 0 (length l)).

  Lemma ins_perm : forall v i p, Permutation (ins v i p) (i :: p).
  Proof.
    induction p as [|j p IH]; cbn; auto. destruct (v i <=? v j); auto.
    rewrite IH. apply perm_swap.
  Qed.
  Lemma ins_sorted : forall v i p, StronglySorted (fun a b => v a <= v b) p ->
    StronglySorted (fun a b => v a <= v b) (ins v i p).
  Proof.
    induction p as [|j p IH]; intro SS; cbn; [repeat constructor|]. inversion SS; subst.
    destruct (Z.leb_spec (v i) (v j)).
    - constructor; auto. constructor; auto. eapply Forall_impl; [|exact H2]. intros; cbn in *; lia.
    - constructor; auto. apply Forall_forall. intros x I. apply (Permutation_in _ (ins_perm v i p)) in I.
      destruct I as [<-|I]; [lia|]. rewrite Forall_forall in H2. auto.
  Qed.
  Lemma positions_sorts : forall l, sorts (positions l) l.
  Proof.
    intro l. unfold sorts, positions. set (v := fun i => nth i l 0). generalize (seq 0 (length l)). intro q.
    split.
    - induction q as [|i q IH]; cbn; auto. rewrite ins_perm. constructor. exact IH.
    - assert (SS : StronglySorted (fun a b => v a <= v b) (fold_right (ins v) [] q)).
      { induction q as [|i q IH]; cbn; [constructor|]. apply ins_sorted. exact IH. }
      revert SS. generalize (fold_right (ins v) [] q). clear. intros p SS. unfold ascending.
      induction SS as [|a p SS IH F]; intros i j L; cbn in L; [lia|].
      destruct j; [lia|]. destruct i; cbn [map nth].
      + rewrite Forall_forall in F.
        assert (I : In (nth j (map v p) 0) (map v p)) by (apply nth_In; lia).
        apply in_map_iff in I. destruct I as [x [<- I]]. apply F. exact I.
      + apply IH. lia.
  Qed.

  (** Two shapes with interleaved rows; the first is out of order and gets
      distances from its third row on. *)
  Definition rows : list (srow Z) :=
    [ SRow 1 110 1 0; SRow 2 210 1 0; SRow 1 100 0 0; SRow 1 130 5 30;
      SRow 2 220 2 0; SRow 1 120 3 20; SRow 2 230 3 0; SRow 2 240 4 0; SRow 2 250 9 0 ].
  Example loaded : parse_shapes positions rows =
    [ Shape 1 [100; 110; 120; 130] [0; 1; 3; 5] [0; 0; 20; 30];
      Shape 2 [210; 220; 230; 240; 250] [1; 2; 3; 4; 9] [] ].
  Proof. vm_compute. reflexivity. Qed.

  (** Geometry on a line. *)
  Definition sqd (a b : Z) : Z := (a - b) * (a - b).
  Fixpoint best_from (p : Z) (l : list Z) (i : nat) (best : nat * Z) : nat :=
    match l with
    | a :: ((b :: _) as t) =>
      let d := Z.min (sqd p a) (sqd p b) in
      best_from p t (Datatypes.S i) (if d <? snd best then (i, d) else best)
    | _ => fst best
    end.
  Definition seg (p : Z) (l : list Z) : nat := best_from p l 0 (O, 1000000).
  Lemma seg_in : forall p l, (2 <= length l)%nat -> (seg p l + 1 < length l)%nat.
  Proof.
    intros p l H. unfold seg.
    assert (G : forall (l : list Z) i best, ((fst best + 1 < i + length l)%nat) ->
              (best_from p l i best + 1 < i + length l)%nat).
    { clear. induction l as [|a l IH]; intros i best H; cbn [best_from]; [exact H|].
      destruct l as [|b l]; [exact H|].
      specialize (IH (Datatypes.S i)). cbn [length] in *.
      match goal with |- context [best_from p (b :: l) _ ?B] => specialize (IH B) end.
      destruct (Z.ltb_spec (Z.min (sqd p a) (sqd p b)) (snd best)); cbn [fst] in *; lia. }
    apply (G l O). cbn. lia.
  Qed.

  Definition loc (s : Z) : Z := s.
  (** Three trips on shape 2 (without distances), the last two alike; one on
      shape 1 with distances. *)
  Definition trips : list trip :=
    [ Trip (Some 1%nat) [210; 231; 250] [];
      Trip (Some 1%nat) [210; 212; 213; 250] [];
      Trip (Some 0%nat) [100; 119; 130] [0; 15; 40];
      Trip (Some 0%nat) [100; 119; 130] [0; 30; 40];
      Trip None [1; 2] [];
      Trip (Some 0%nat) [100; 110; 120; 125; 130] [] ].
  Definition part := get_shape seg sqd (parse_shapes positions rows) loc 0 trips.
  Example ex_inner : part (nth 0 trips (Trip None [] [])) 0 2 = [210; 220; 230].
  Proof. vm_compute. reflexivity. Qed.
  Example ex_room : part (nth 1 trips (Trip None [] [])) 1 3 = [220; 230].
  Proof. vm_compute. reflexivity. Qed.
  Example ex_dist : part (nth 2 trips (Trip None [] [])) 1 3 = [120; 130].
  Proof. vm_compute. reflexivity. Qed.
  (** F114: the distances of the second trip alike are not used: its second
      stop, at distance 30, is the last point of the shape. *)
  Example ex_shared : part (nth 3 trips (Trip None [] [])) 1 3 = [120; 130] /\
    get_offsets_by_dist_traveled [0; 30; 40] [0; 0; 20; 30] = [0; 3; 3].
  Proof. vm_compute. split; reflexivity. Qed.
  (** More stops than points: no shape. *)
  Example ex_few : part (nth 5 trips (Trip None [] [])) 0 5 = [].
  Proof. vm_compute. reflexivity. Qed.

  (** The hypotheses of the theorems on this feed. *)
  Example applies : 
    part (nth 0 trips (Trip None [] [])) 0 3 = [210; 220; 230; 240; 250].
  Proof.
    refine (proj1 (C79_whole_shape positions positions_sorts seg sqd seg_in loc 0 rows trips
             (Trip (Some 1%nat) [210; 231; 250] []) 1
             (Shape 2 [210; 220; 230; 240; 250] [1; 2; 3; 4; 9] []) _ _ _ _ _ _)).
    - left; reflexivity.
    - reflexivity.
    - vm_compute; reflexivity.
    - intros x I. cbn in I. repeat (destruct I as [<-|I]; [cbn; auto|]). destruct I.
    - cbn. lia.
    - intros r I. cbn in I. repeat (destruct I as [<-|I]; [reflexivity|]). destruct I.
  Qed.
End Shapes_Examples.

(** F114: trips with the same shape and stops share the offsets of the first
    of them; the distances of the others are not used. *)
Theorem C79_own_distances_refuted :
  exists (rows : list (srow Z)) trips tr h,
    let shapes := parse_shapes Shapes_Examples.positions rows in
    In tr trips /\ t_shape tr = Some O /\ nth_error shapes O = Some h /\
    h_dist h <> [] /\ length (t_dist tr) = length (t_stops tr) /\
    let own := get_offsets_by_dist_traveled (t_dist tr) (h_dist h) in
    get_shape Shapes_Examples.seg Shapes_Examples.sqd shapes (fun s => s) 0 trips tr 1 3 <>
      points (h_poly h) (nth 1 own 0) (nth 2 own 0).
Proof.
  exists Shapes_Examples.rows, Shapes_Examples.trips, (Trip (Some O) [100; 119; 130] [0; 30; 40]),
    (Shape 1 [100; 110; 120; 130] [0; 1; 3; 5] [0; 0; 20; 30]).
  cbv zeta. split; [cbn; tauto|]. split; [reflexivity|]. split; [vm_compute; reflexivity|].
  split; [discriminate|]. split; [reflexivity|]. vm_compute. discriminate.
Qed.
