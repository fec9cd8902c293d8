From Coq Require Import List Arith Bool Lia Permutation.
From Verif Require Import Base Dial_Model.
Import ListNotations.

Lemma set_nth_concat_perm {A} (bs : list (list A)) k l0 :
  k < length bs -> exists rest, Permutation (concat bs) (nth k bs [] ++ rest)
                                /\ Permutation (concat (set_nth bs k l0)) (l0 ++ rest).
Proof.
  revert k; induction bs as [|b bs IH]; intros [|k]; simpl; intros H; try lia.
  - exists (concat bs). split; auto.
  - destruct (IH k ltac:(lia)) as (r & H1 & H2). exists (b ++ r). split.
    + rewrite H1. rewrite !app_assoc. apply Permutation_app_tail, Permutation_app_comm.
    + rewrite H2. rewrite !app_assoc. apply Permutation_app_tail, Permutation_app_comm.
Qed.

Lemma in_concat_nth {A} (bs : list (list A)) x :
  In x (concat bs) <-> exists k, k < length bs /\ In x (nth k bs []).
Proof.
  rewrite in_concat. split.
  - intros (l & Hl & Hx). apply (In_nth _ _ []) in Hl. destruct Hl as (k & Hk & <-). eauto.
  - intros (k & Hk & Hx). exists (nth k bs []). split; auto. now apply nth_In.
Qed.

Section Dial.
  Context {T : Type} (bucket : T -> nat).

  Definition content (d : dial T) : list T := concat (q_buckets d).
  Definition dinv (n : nat) (d : dial T) : Prop :=
    length (q_buckets d) = n /\
    q_size d = length (content d) /\
    (forall k x, In x (nth k (q_buckets d) []) -> bucket x = k) /\
    (forall k, k < q_cur d -> nth k (q_buckets d) [] = []).

  Lemma dinv_new m : dinv (m + 1) (dial_new m).
  Proof.
    unfold dinv, dial_new, content; simpl. rewrite repeat_length.
    assert (Hn : forall k, nth k (repeat (@nil T) (m + 1)) [] = []).
    { intros k. destruct (Nat.lt_ge_cases k (m + 1)).
      - now apply nth_repeat.
      - apply nth_overflow. now rewrite repeat_length. }
    repeat split.
    - clear. induction (m + 1); simpl; auto.
    - intros k x H. now rewrite Hn in H.
    - intros; lia.
  Qed.

  Lemma next_bucket_spec (bs : list (list T)) b fuel :
    fuel = length bs - b -> b <= length bs ->
    let r := next_bucket bs b fuel in
    b <= r <= length bs /\ (forall k, b <= k < r -> nth k bs [] = []) /\ (r < length bs -> nth r bs [] <> []).
  Proof.
    revert b; induction fuel as [|f IH]; intros b Hf Hb; simpl.
    - repeat split; intros; lia.
    - destruct (nth b bs []) as [|x l] eqn:E.
      + destruct (IH (S b)) as (H1 & H2 & H3); try lia.
        repeat split; try lia; auto. intros k Hk.
        destruct (Nat.eq_dec k b); subst; auto. apply H2; lia.
      + split; [lia|split]. { intros k Hk; lia. } { intros; congruence. }
  Qed.

  Lemma next_spec n d : dinv n d -> content d <> [] ->
    let b := get_next_bucket d in
    b < n /\ nth b (q_buckets d) [] <> [] /\ (forall k, k < b -> nth k (q_buckets d) [] = []).
  Proof.
    intros (Hl & Hs & Hb & Hc) Hne b.
    assert (Hcur : q_cur d <= length (q_buckets d)).
    { destruct (Nat.le_gt_cases (q_cur d) (length (q_buckets d))); auto.
      exfalso. apply Hne. destruct (content d) as [|x c] eqn:E; auto.
      assert (Hx : In x (content d)) by (rewrite E; now left).
      apply in_concat_nth in Hx. destruct Hx as (k & Hk & Hx).
      rewrite Hc in Hx by lia. destruct Hx. }
    destruct (next_bucket_spec (q_buckets d) (q_cur d) _ eq_refl Hcur) as (H1 & H2 & H3).
    fold (get_next_bucket d) in *. fold b in H1, H2, H3.
    assert (Hbl : b < length (q_buckets d)).
    { destruct (Nat.eq_dec b (length (q_buckets d))); [|lia].
      exfalso. apply Hne. destruct (content d) as [|x c] eqn:E; auto.
      assert (Hx : In x (content d)) by (rewrite E; now left).
      apply in_concat_nth in Hx. destruct Hx as (k & Hk & Hx).
      destruct (Nat.lt_ge_cases k (q_cur d)).
      - rewrite Hc in Hx by lia. destruct Hx.
      - rewrite H2 in Hx by lia. destruct Hx. }
    split; [lia|split; [auto|]].
    intros k Hk. destruct (Nat.lt_ge_cases k (q_cur d)); [auto|]. apply H2; lia.
  Qed.

  Lemma push_spec n d x : dinv n d ->
    (bucket x < n -> exists d', dial_push bucket d x = Some d') /\
    (forall d', dial_push bucket d x = Some d' ->
       bucket x < n /\ dinv n d' /\ Permutation (content d') (x :: content d)).
  Proof.
    intros (Hl & Hs & Hb & Hc). unfold dial_push. rewrite Hl.
    destruct (Nat.ltb_spec (bucket x) n) as [H|H].
    - split; [eauto|]. intros d' E; injection E as <-. split; auto.
      assert (HP : Permutation (concat (set_nth (q_buckets d) (bucket x) (x :: nth (bucket x) (q_buckets d) []))) (x :: content d)).
      { destruct (set_nth_concat_perm (q_buckets d) (bucket x) (x :: nth (bucket x) (q_buckets d) [])) as (r & H1 & H2).
        - now rewrite Hl.
        - rewrite H2. unfold content. rewrite H1. simpl. reflexivity. }
      split; [|exact HP]. unfold dinv, content; simpl. rewrite set_nth_length.
      repeat split; auto.
      + rewrite (Permutation_length HP). simpl. now rewrite Hs.
      + intros k y Hy. rewrite nth_set_nth in Hy.
        destruct (Nat.eqb_spec (bucket x) k); simpl in Hy.
        * rewrite Hl in Hy. destruct (Nat.ltb_spec (bucket x) n); try lia.
          destruct Hy as [<-|Hy]; auto. apply Hb in Hy. lia.
        * now apply Hb.
      + intros k Hk. rewrite nth_set_nth_neq by lia. apply Hc. lia.
    - split; [lia|discriminate].
  Qed.

  Lemma top_spec n d : dinv n d -> content d <> [] ->
    exists x d', dial_top d = Some (x, d') /\ dinv n d' /\ q_buckets d' = q_buckets d /\ q_size d' = q_size d /\
      In x (content d) /\ (forall y, In y (content d) -> bucket x <= bucket y) /\
      dial_pop d' = dial_pop d /\ dial_top d' = Some (x, d').
  Proof.
    intros I Hne. pose proof (next_spec n d I Hne) as (Hb1 & Hb2 & Hb3).
    unfold dial_top. destruct I as (Hl & Hs & Hb & Hc).
    destruct (nth (get_next_bucket d) (q_buckets d) []) as [|x l] eqn:E; [congruence|].
    set (d' := mk_dial (get_next_bucket d) (q_size d) (q_buckets d)).
    assert (Hg : get_next_bucket d' = get_next_bucket d).
    { unfold d', get_next_bucket at 1; simpl.
      destruct (length (q_buckets d) - get_next_bucket d) eqn:E2; simpl; auto.
      now rewrite E. }
    exists x, d'. split; auto. split; [|split; [|split; [|split; [|split; [|split]]]]]; auto.
    - repeat split; auto.
    - apply in_concat_nth. exists (get_next_bucket d). rewrite E. split; [lia|now left].
    - intros y Hy. apply in_concat_nth in Hy. destruct Hy as (k & Hk & Hy).
      rewrite (Hb (get_next_bucket d) x) by (rewrite E; now left).
      rewrite (Hb k y Hy). destruct (Nat.le_gt_cases (get_next_bucket d) k); auto.
      rewrite Hb3 in Hy by lia. destruct Hy.
    - unfold dial_pop. now rewrite Hg.
    - rewrite Hg. change (q_buckets d') with (q_buckets d). rewrite E. reflexivity.
  Qed.

  Lemma pop_spec n d : dinv n d -> content d <> [] ->
    exists x d0 d', dial_top d = Some (x, d0) /\ dial_pop d = Some d' /\ dinv n d' /\
      Permutation (content d) (x :: content d').
  Proof.
    intros I Hne. pose proof (next_spec n d I Hne) as (Hb1 & Hb2 & Hb3).
    unfold dial_top, dial_pop. destruct I as (Hl & Hs & Hb & Hc).
    destruct (nth (get_next_bucket d) (q_buckets d) []) as [|x l] eqn:E; [congruence|].
    exists x. eexists _, _. split; [reflexivity|]. split; [reflexivity|].
    assert (HP : Permutation (content d) (x :: concat (set_nth (q_buckets d) (get_next_bucket d) l))).
    { destruct (set_nth_concat_perm (q_buckets d) (get_next_bucket d) l) as (r & H1 & H2).
      - now rewrite Hl.
      - unfold content. rewrite H1, H2, E. reflexivity. }
    split; [|exact HP]. unfold dinv, content; simpl. rewrite set_nth_length. repeat split; auto.
    - rewrite Hs. unfold content in *. rewrite (Permutation_length HP). simpl. lia.
    - intros k y Hy. rewrite nth_set_nth in Hy.
      destruct (Nat.eqb_spec (get_next_bucket d) k); simpl in Hy.
      + destruct (Nat.ltb_spec (get_next_bucket d) (length (q_buckets d))); try lia.
        apply Hb. rewrite <- e, E. now right.
      + now apply Hb.
    - intros k Hk. rewrite nth_set_nth_neq by lia. apply Hb3; lia.
  Qed.

  Lemma top_pop_empty n d : dinv n d -> content d = [] -> dial_top d = None /\ dial_pop d = None.
  Proof.
    intros (Hl & Hs & Hb & Hc) He. unfold dial_top, dial_pop.
    assert (Hn : nth (get_next_bucket d) (q_buckets d) [] = []).
    { destruct (nth (get_next_bucket d) (q_buckets d) []) as [|x l] eqn:E; auto.
      assert (In x (content d)).
      { apply in_concat_nth. exists (get_next_bucket d). rewrite E. split; [|now left].
        destruct (Nat.lt_ge_cases (get_next_bucket d) (length (q_buckets d))); auto.
        rewrite nth_overflow in E by lia. discriminate. }
      rewrite He in H. destruct H. }
    now rewrite Hn.
  Qed.

  Lemma clear_spec n d : dinv n d -> dinv n (dial_clear d) /\ content (dial_clear d) = [].
  Proof.
    intros (Hl & Hs & Hb & Hc). unfold dinv, content, dial_clear; simpl.
    assert (HC : concat (map (fun _ : list T => @nil T) (q_buckets d)) = []).
    { clear. induction (q_buckets d); simpl; auto. }
    assert (HN : forall k, nth k (map (fun _ : list T => @nil T) (q_buckets d)) [] = []).
    { intros k. clear. revert k; induction (q_buckets d); intros [|k]; simpl; auto. }
    rewrite map_length, HC. repeat split; auto.
    intros k x H. now rewrite HN in H.
  Qed.
End Dial.
