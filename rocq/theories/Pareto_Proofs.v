From Coq Require Import List Arith Lia Bool.
From Verif Require Import Base Pareto_Model.
Import ListNotations.

Section Proofs.
  Variable T : Type.
  Variable dom : T -> T -> bool.

  (** No element at one position dominates the element at another position. *)
  Definition antichain (s : list T) : Prop :=
    forall i j x y, nth_error s i = Some x -> nth_error s j = Some y -> i <> j -> dom x y = false.

  Hypothesis dom_refl : forall x, dom x x = true.
  Hypothesis dom_trans : forall x y z, dom x y = true -> dom y z = true -> dom x z = true.

  Notation keepb el := (fun x => negb (dom el x)).

  Lemma filter_length_le' (f : T -> bool) (l : list T) : length (filter f l) <= length l.
  Proof. induction l as [|a l IH]; simpl; auto. destruct (f a); simpl; lia. Qed.

  Lemma filter_true (f : T -> bool) (l : list T) : (forall x, In x l -> f x = true) -> filter f l = l.
  Proof. induction l as [|a l IH]; simpl; auto. intros H. rewrite H by auto. f_equal. apply IH. auto. Qed.

  Lemma filter_all (f : T -> bool) (l : list T) :
    length (filter f l) = length l -> filter f l = l.
  Proof.
    induction l as [|a l IH]; simpl; auto. destruct (f a); simpl; intros.
    - f_equal; apply IH; lia.
    - pose proof (filter_length_le' f l). lia.
  Qed.

  Lemma set_prefix_filter orig el i els x :
    nth_error orig i = Some x ->
    length els = length orig ->
    firstn (length (filter (keepb el) (firstn i orig))) els = filter (keepb el) (firstn i orig) ->
    dom el x = false ->
    firstn (length (filter (keepb el) (firstn (S i) orig)))
      (set_nth els (length (filter (keepb el) (firstn i orig))) x) = filter (keepb el) (firstn (S i) orig).
  Proof.
    intros Hn Hl Hf Hd.
    rewrite (firstn_S_nth_error _ _ _ Hn), filter_app. simpl. rewrite Hd. simpl.
    rewrite app_length. simpl. rewrite Nat.add_1_r, firstn_S_set_nth.
    - now rewrite Hf.
    - assert (i < length orig) by (apply nth_error_Some; congruence).
      pose proof (filter_length_le' (keepb el) (firstn i orig)) as HH.
      rewrite firstn_length_le in HH; lia.
  Qed.

  Lemma add_loop_spec orig el : forall fuel i els,
    fuel + i = length orig ->
    length els = length orig ->
    let m := length (filter (keepb el) (firstn i orig)) in
    firstn m els = filter (keepb el) (firstn i orig) ->
    skipn i els = skipn i orig ->
    (m = i -> els = orig) ->
    (forall x, In x (firstn i orig) -> dom x el = false) ->
    let r := add_loop T dom fuel i (i - m) els el in
    match snd r with
    | Added p =>
        fst r = filter (keepb el) orig ++ [el] /\ p = length (filter (keepb el) orig)
        /\ forall x, In x orig -> dom x el = false
    | Rejected j =>
        exists x, nth_error orig j = Some x /\ dom x el = true
          /\ (forall j', j' < j -> forall y, nth_error orig j' = Some y -> dom y el = false)
          /\ ((forall y, In y (firstn j orig) -> dom el y = false) -> fst r = orig)
    end.
  Proof.
    induction fuel as [|fuel IH]; intros i els Hfi Hlen m Hpre Hsuf Hsame Hnd; cbn [add_loop].
    - simpl. assert (i = length orig) by lia. subst i. subst m.
      rewrite firstn_all in *.
      set (f := filter (keepb el) orig) in *.
      assert (length f <= length orig) by (apply filter_length_le').
      replace (length els - (length orig - length f)) with (length f) by lia.
      rewrite Hpre. auto.
    - assert (Hi : i < length orig) by lia.
      destruct (nth_error orig i) as [x|] eqn:Hx; [|apply nth_error_None in Hx; lia].
      assert (Hx' : nth_error els i = Some x).
      { rewrite (skipn_nth_error_eq els orig i i); auto. }
      rewrite Hx'.
      assert (Hm : m <= i).
      { subst m. pose proof (filter_length_le' (keepb el) (firstn i orig)) as HH.
        rewrite firstn_length_le in HH; lia. }
      destruct (dom x el) eqn:Hxe.
      + simpl. exists x. repeat split; auto.
        * intros j' Hj' y Hy. apply Hnd. rewrite <- (firstn_skipn i orig) in Hy.
          rewrite nth_error_app1 in Hy by (rewrite firstn_length_le; lia).
          eapply nth_error_In; eauto.
        * intros Hall. apply Hsame. subst m.
          rewrite filter_true; [apply firstn_length_le; lia|].
          intros y Hy. now rewrite Hall.
      + destruct (dom el x) eqn:Hex.
        * assert (Hm' : length (filter (keepb el) (firstn (S i) orig)) = m).
          { rewrite (firstn_S_nth_error _ _ _ Hx), filter_app. simpl. rewrite Hex. simpl.
            now rewrite app_nil_r. }
          specialize (IH (S i) els). cbv zeta in IH. rewrite Hm' in IH.
          replace (S i - m) with (S (i - m)) in IH by lia.
          apply IH; auto; try lia.
          -- rewrite Hpre. rewrite (firstn_S_nth_error _ _ _ Hx), filter_app. simpl. rewrite Hex.
             simpl. now rewrite app_nil_r.
          -- replace (S i) with (1 + i) by lia. rewrite <- (skipn_skipn els 1 i), <- (skipn_skipn orig 1 i). now rewrite Hsuf.
          -- intros y. rewrite (firstn_S_nth_error _ _ _ Hx), in_app_iff. simpl.
             intros [H|[<-|[]]]; auto.
        * assert (Hm' : length (filter (keepb el) (firstn (S i) orig)) = S m).
          { rewrite (firstn_S_nth_error _ _ _ Hx), filter_app. simpl. rewrite Hex. simpl.
            rewrite app_length. simpl. subst m. lia. }
          replace (i - (i - m)) with m by lia.
          specialize (IH (S i) (set_nth els m x)). cbv zeta in IH. rewrite Hm' in IH.
          replace (S i - S m) with (i - m) in IH by lia.
          apply IH; try lia.
          -- now rewrite set_nth_length.
          -- rewrite <- Hm'. apply set_prefix_filter; auto.
          -- rewrite skipn_set_nth by lia. replace (S i) with (1 + i) by lia.
             rewrite <- (skipn_skipn els 1 i), <- (skipn_skipn orig 1 i). now rewrite Hsuf.
          -- intros He. assert (m = i) by lia. rewrite H. rewrite (Hsame H). apply set_nth_same; auto.
          -- intros y. rewrite (firstn_S_nth_error _ _ _ Hx), in_app_iff. simpl.
             intros [H|[<-|[]]]; auto.
  Qed.

  Lemma add_spec els el : let r := add T dom els el in
    match snd r with
    | Added p =>
        fst r = filter (keepb el) els ++ [el] /\ p = length (filter (keepb el) els)
        /\ forall x, In x els -> dom x el = false
    | Rejected j =>
        exists x, nth_error els j = Some x /\ dom x el = true
          /\ (forall j', j' < j -> forall y, nth_error els j' = Some y -> dom y el = false)
          /\ ((forall y, In y (firstn j els) -> dom el y = false) -> fst r = els)
    end.
  Proof.
    unfold add. apply (add_loop_spec els el (length els) 0 els); simpl; auto; try lia.
  Qed.

  Lemma in_firstn (l : list T) n x : In x (firstn n l) -> exists k, k < n /\ nth_error l k = Some x.
  Proof.
    intros H. apply In_nth_error in H. destruct H as [k Hk]. exists k.
    assert (k < length (firstn n l)) by (apply nth_error_Some; congruence).
    rewrite firstn_length in H. split; [lia|].
    rewrite <- (firstn_skipn n l). rewrite nth_error_app1; auto. rewrite firstn_length; lia.
  Qed.

  Lemma add_antichain_rejected els el j :
    antichain els -> snd (add T dom els el) = Rejected j -> fst (add T dom els el) = els.
  Proof.
    intros Ha Hr. pose proof (add_spec els el) as H. cbv zeta in H. rewrite Hr in H.
    destruct H as (x & Hx & Hd & _ & Heq). apply Heq.
    intros y Hy. destruct (in_firstn _ _ _ Hy) as (k & Hk & Hky).
    destruct (dom el y) eqn:E; auto. exfalso.
    assert (dom x y = true) by (eapply dom_trans; eauto).
    rewrite (Ha j k x y) in H; auto; try congruence. lia.
  Qed.

  Lemma antichain_filter f els : antichain els -> antichain (filter f els).
  Proof.
    induction els as [|a l IH]; simpl; intros Ha; auto.
    assert (Hl : antichain l).
    { intros i j x y Hi Hj Hn. apply (Ha (S i) (S j) x y); auto. }
    specialize (IH Hl). destruct (f a); auto.
    assert (Hin : forall k x, nth_error (filter f l) k = Some x -> exists k', nth_error l k' = Some x).
    { intros k x Hk. apply nth_error_In in Hk. apply filter_In in Hk. destruct Hk as [Hk _].
      now apply In_nth_error in Hk. }
    intros [|i] [|j] x y Hi Hj Hn; simpl in *; try congruence.
    - injection Hi as <-. destruct (Hin _ _ Hj) as [k Hk]. apply (Ha 0 (S k) a y); auto.
    - injection Hj as <-. destruct (Hin _ _ Hi) as [k Hk]. apply (Ha (S k) 0 x a); auto.
    - apply (IH i j x y); auto.
  Qed.

  Lemma antichain_snoc els el :
    antichain els -> (forall x, In x els -> dom x el = false /\ dom el x = false) -> antichain (els ++ [el]).
  Proof.
    intros Ha H i j x y Hi Hj Hn.
    assert (Hc : forall k z, nth_error (els ++ [el]) k = Some z ->
                 (k < length els /\ nth_error els k = Some z) \/ (k = length els /\ z = el)).
    { intros k z Hk. destruct (Nat.lt_ge_cases k (length els)).
      - rewrite nth_error_app1 in Hk by auto. auto.
      - rewrite nth_error_app2 in Hk by auto. destruct (k - length els) as [|n] eqn:E; simpl in Hk.
        + injection Hk as <-. right; split; auto; lia.
        + now rewrite nth_error_nil in Hk || (destruct n; discriminate). }
    destruct (Hc _ _ Hi) as [[_ Hi']|[? ->]], (Hc _ _ Hj) as [[_ Hj']|[? ->]].
    - eauto.
    - apply H. eapply nth_error_In; eauto.
    - apply H. eapply nth_error_In; eauto.
    - lia.
  Qed.

  Lemma add_preserves_antichain els el : antichain els -> antichain (fst (add T dom els el)).
  Proof.
    intros Ha. destruct (snd (add T dom els el)) as [j|p] eqn:Hr.
    - now rewrite (add_antichain_rejected els el j).
    - pose proof (add_spec els el) as H. cbv zeta in H. rewrite Hr in H.
      destruct H as (-> & _ & Hn). apply antichain_snoc.
      + now apply antichain_filter.
      + intros x Hx. apply filter_In in Hx. destruct Hx as [Hx Hk].
        split; auto. now apply negb_true_iff in Hk.
  Qed.

  Lemma add_covers els el : antichain els ->
    forall y, (exists x, In x els /\ dom x y = true) \/ y = el ->
    exists x, In x (fst (add T dom els el)) /\ dom x y = true.
  Proof.
    intros Ha y Hy. destruct (snd (add T dom els el)) as [j|p] eqn:Hr.
    - rewrite (add_antichain_rejected els el j) by auto. destruct Hy as [Hy| ->]; auto.
      pose proof (add_spec els el) as H. cbv zeta in H. rewrite Hr in H.
      destruct H as (x & Hx & Hd & _). exists x. split; auto. eapply nth_error_In; eauto.
    - pose proof (add_spec els el) as H. cbv zeta in H. rewrite Hr in H.
      destruct H as (-> & _ & Hn).
      destruct Hy as [(x & Hx & Hd)| ->].
      + destruct (dom el x) eqn:E.
        * exists el. split; [apply in_or_app; right; left; auto|]. eapply dom_trans; eauto.
        * exists x. split; auto. apply in_or_app. left. apply filter_In. now rewrite E.
      + exists el. split; [apply in_or_app; right; left; auto|]. apply dom_refl.
  Qed.

  Lemma add_subset els el : antichain els ->
    forall x, In x (fst (add T dom els el)) -> In x els \/ x = el.
  Proof.
    intros Ha x. destruct (snd (add T dom els el)) as [j|p] eqn:Hr.
    - rewrite (add_antichain_rejected els el j) by auto. auto.
    - pose proof (add_spec els el) as H. cbv zeta in H. rewrite Hr in H.
      destruct H as (-> & _ & Hn). rewrite in_app_iff, filter_In. simpl. intuition.
  Qed.

  Lemma add_all_snoc xs x : add_all T dom (xs ++ [x]) = fst (add T dom (add_all T dom xs) x).
  Proof. unfold add_all. now rewrite fold_left_app. Qed.

  Lemma add_all_antichain xs : antichain (add_all T dom xs).
  Proof.
    induction xs as [|x xs IH] using rev_ind.
    - intros [|i] j x y Hi; discriminate.
    - rewrite add_all_snoc. now apply add_preserves_antichain.
  Qed.

  Lemma add_all_covers xs : forall y, In y xs -> exists x, In x (add_all T dom xs) /\ dom x y = true.
  Proof.
    induction xs as [|x xs IH] using rev_ind; intros y Hy; [easy|].
    rewrite add_all_snoc. apply add_covers; [apply add_all_antichain|].
    apply in_app_iff in Hy. simpl in Hy. destruct Hy as [Hy|[<-|[]]]; auto.
  Qed.

  Lemma add_all_sound xs : forall y, In y (add_all T dom xs) -> In y xs.
  Proof.
    induction xs as [|x xs IH] using rev_ind; intros y Hy; [easy|].
    rewrite add_all_snoc in Hy. apply add_subset in Hy; [|apply add_all_antichain].
    apply in_app_iff. simpl. destruct Hy; subst; auto.
  Qed.

  Lemma add_all_result xs x :
    let s := add_all T dom xs in
    (exists p, snd (add T dom s x) = Added p /\ nth_error (fst (add T dom s x)) p = Some x
               /\ (forall y, In y s -> dom y x = false))
    \/ (exists j y, snd (add T dom s x) = Rejected j /\ fst (add T dom s x) = s
               /\ nth_error s j = Some y /\ dom y x = true).
  Proof.
    intros s. pose proof (add_all_antichain xs) as Ha. fold s in Ha.
    pose proof (add_spec s x) as H. cbv zeta in H.
    destruct (snd (add T dom s x)) as [j|p] eqn:Hr.
    - right. destruct H as (y & Hy & Hd & _). exists j, y. repeat split; auto.
      eapply add_antichain_rejected; eauto.
    - left. destruct H as (-> & -> & Hn). exists (length (filter (keepb x) s)). repeat split; auto.
      rewrite nth_error_app2 by auto. now rewrite Nat.sub_diag.
  Qed.
End Proofs.
