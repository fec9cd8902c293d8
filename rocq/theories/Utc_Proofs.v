(** Proofs about the expansion of trips into UTC vehicles. *)
From Coq Require Import List ZArith Lia Bool Arith Permutation.
From Verif Require Import Base Time_Model Calendar_Model Utc_Model.
Import ListNotations.
Local Open Scope Z_scope.

Lemma day_list_in d : In d day_list <-> 0 <= d < 512.
Proof.
  unfold day_list. rewrite in_map_iff. split.
  - intros (n & <- & H). apply in_seq in H. lia.
  - intros H. exists (Z.to_nat d). split; [lia|]. apply in_seq. lia.
Qed.
Lemma NoDup_map_inj {A B} (f : A -> B) l : (forall x y, In x l -> In y l -> f x = f y -> x = y) -> NoDup l -> NoDup (map f l).
Proof.
  intros Hinj. induction l as [|x l IH]; intros Hnd; simpl; [constructor|].
  inversion Hnd as [|? ? Hni Hnd']; subst. constructor.
  - intros Hin. apply in_map_iff in Hin. destruct Hin as (y & Hy & Hin).
    assert (y = x) by (apply Hinj; simpl; auto). subst. auto.
  - apply IH; auto. intros a b Ha Hb. apply Hinj; simpl; auto.
Qed.
Lemma day_list_nodup : NoDup day_list.
Proof. unfold day_list. apply NoDup_map_inj; [intros; lia|apply seq_NoDup]. Qed.

Global Opaque day_list.

Section GroupProofs.
  Context {K : Type}.
  Variable eqb : K -> K -> bool.
  Hypothesis eqb_spec : forall a b, eqb a b = true <-> a = b.

  Definition has (m : list (K * bitfield)) (k : K) (d : Z) : Prop := exists b, In (k, b) m /\ b d = true.
  Lemma map_emplace_keys m k x : In x (map fst (map_emplace eqb m k)) <-> x = k \/ In x (map fst m).
  Proof.
    induction m as [|[k' b] m IH]; simpl; [intuition congruence|].
    destruct (eqb k k') eqn:E; simpl.
    - apply eqb_spec in E. subst. intuition congruence.
    - rewrite IH. intuition congruence.
  Qed.
  Lemma map_set_keys m k d : map fst (map_set eqb m k d) = map fst m.
  Proof. induction m as [|[k' b] m IH]; simpl; auto. destruct (eqb k k'); simpl; congruence. Qed.
  Lemma map_emplace_nodup m k : NoDup (map fst m) -> NoDup (map fst (map_emplace eqb m k)).
  Proof.
    induction m as [|[k' b] m IH]; simpl; intros H; [repeat constructor; auto|].
    destruct (eqb k k') eqn:E; simpl; auto.
    inversion H; subst. constructor; auto. intros Hin. apply map_emplace_keys in Hin.
    destruct Hin as [->|Hin]; [|auto]. assert (eqb k k = true) by now apply eqb_spec. congruence.
  Qed.
  Lemma map_emplace_has m k x d : has (map_emplace eqb m k) x d <-> has m x d.
  Proof.
    unfold has. induction m as [|[k' b] m IH]; simpl.
    - split; intros (b & H & Hb); [|tauto]. destruct H as [H|[]]. injection H as <- <-. discriminate.
    - destruct (eqb k k'); [reflexivity|]. split; intros (b' & [H|H] & Hb).
      + exists b'. auto.
      + destruct (proj1 IH) as (b'' & H1 & H2); [eauto|]. exists b''. auto.
      + exists b'. simpl. auto.
      + destruct (proj2 IH) as (b'' & H1 & H2); [eauto|]. exists b''. simpl. auto.
  Qed.
  Lemma map_set_has m k d x e : NoDup (map fst m) -> In k (map fst m) ->
    (has (map_set eqb m k d) x e <-> has m x e \/ (x = k /\ e = d)).
  Proof.
    unfold has. induction m as [|[k' b] m IH]; simpl; intros Hnd Hin; [tauto|].
    inversion Hnd as [|? ? Hni Hnd']; subst.
    destruct (eqb k k') eqn:E.
    - apply eqb_spec in E. subst k'. split.
      + intros (b' & [H|H] & Hb).
        * injection H as <- <-. unfold bf_set in Hb. destruct (Z.eqb_spec e d); [right; auto|left; eauto].
        * left. eauto.
      + intros [(b' & [H|H] & Hb)|[-> ->]].
        * injection H as <- <-. exists (bf_set b d true). split; [now left|]. unfold bf_set. destruct (e =? d); [reflexivity|exact Hb].
        * exists b'. split; [right; exact H|exact Hb].
        * exists (bf_set b d true). split; [now left|]. unfold bf_set. now rewrite Z.eqb_refl.
    - assert (Hin' : In k (map fst m)).
      { destruct Hin as [->|Hin]; auto. assert (eqb k k = true) by now apply eqb_spec. congruence. }
      specialize (IH Hnd' Hin'). split.
      + intros (b' & [H|H] & Hb); [left; exists b'; split; [left; exact H|exact Hb]|].
        destruct (proj1 IH) as [(b'' & H1 & H2)|H1]; [exists b'; split; assumption| |right; exact H1].
        left. exists b''. split; [right; exact H1|exact H2].
      + intros [(b' & [H|H] & Hb)|H].
        * exists b'. split; [left; exact H|exact Hb].
        * destruct (proj2 IH) as (b'' & H1 & H2); [left; exists b'; split; assumption|].
          exists b''. split; [right; exact H1|exact H2].
        * destruct (proj2 IH) as (b'' & H1 & H2); [right; exact H|].
          exists b''. split; [right; exact H1|exact H2].
  Qed.

  Lemma group_loop_spec ents prev m :
    NoDup (map fst m) ->
    (forall k d, In (k, d) ents -> k = prev -> In prev (map fst m)) ->
    let m' := group_loop eqb ents prev m in
    NoDup (map fst m') /\
    (forall k d, has m' k d <-> has m k d \/ In (k, d) ents) /\
    (forall k, In k (map fst m') <-> In k (map fst m) \/ exists d, In (k, d) ents).
  Proof.
    revert prev m. induction ents as [|[k d] ents IH]; intros prev m Hnd Hp; cbn [group_loop].
    - split; auto. split; [intros; simpl; tauto|]. intros. simpl. split; [tauto|]. intros [H|[? []]]; auto.
    - destruct (eqb k prev) eqn:E.
      + apply eqb_spec in E. subst k.
        assert (Hin : In prev (map fst m)) by (eapply Hp; [now left|reflexivity]).
        destruct (IH prev (map_set eqb m prev d)) as (H1 & H2 & H3).
        * rewrite map_set_keys; auto.
        * intros. rewrite map_set_keys. auto.
        * split; auto. split.
          -- intros x e. rewrite H2, map_set_has by auto. simpl. split.
             ++ intros [[H|[-> ->]]|H]; auto.
             ++ intros [H|[H|H]]; auto. injection H as <- <-. auto.
          -- intros x. rewrite H3, map_set_keys. simpl. split.
             ++ intros [H|[e H]]; auto. right. eauto.
             ++ intros [H|[e [H|H]]]; auto; [injection H as <- <-; auto|right; eauto].
      + destruct (IH k (map_set eqb (map_emplace eqb m k) k d)) as (H1 & H2 & H3).
        * rewrite map_set_keys. now apply map_emplace_nodup.
        * intros. rewrite map_set_keys. apply map_emplace_keys. auto.
        * split; auto. split.
          -- intros x e. rewrite H2, map_set_has, map_emplace_has.
             ++ simpl. split.
                ** intros [[H|[-> ->]]|H]; auto.
                ** intros [H|[H|H]]; auto. injection H as <- <-. auto.
             ++ now apply map_emplace_nodup.
             ++ apply map_emplace_keys. auto.
          -- intros x. rewrite H3, map_set_keys, map_emplace_keys. simpl. split.
             ++ intros [[->|H]|[e H]]; eauto.
             ++ intros [H|[e [H|H]]]; auto; [injection H as <- <-; auto|right; eauto].
  Qed.

  Lemma in_unique (m : list (K * bitfield)) k b b' :
    NoDup (map fst m) -> In (k, b) m -> In (k, b') m -> b = b'.
  Proof.
    induction m as [|[k0 b0] m IH]; simpl; intros Hnd H1 H2; [tauto|].
    inversion Hnd as [|? ? Hni Hnd']; subst.
    destruct H1 as [H1|H1], H2 as [H2|H2]; auto; try congruence.
    - injection H1 as <- <-. exfalso. apply Hni. apply in_map_iff. exists (k0, b'). auto.
    - injection H2 as <- <-. exfalso. apply Hni. apply in_map_iff. exists (k0, b). auto.
  Qed.

  Lemma NoDup_flat_pairs (m : list (K * bitfield)) :
    NoDup (map fst m) -> NoDup (flat_map (fun kb => map (pair (fst kb)) (filter (snd kb) day_list)) m).
  Proof.
    induction m as [|[k b] m IH]; simpl; intros Hnd; [constructor|].
    inversion Hnd as [|? ? Hni Hnd']; subst.
    assert (Hd : forall x, In x (map (pair k) (filter b day_list)) -> fst x = k)
      by (intros x Hx; apply in_map_iff in Hx; destruct Hx as (y & <- & _); reflexivity).
    assert (Hd' : forall x, In x (flat_map (fun kb => map (pair (fst kb)) (filter (snd kb) day_list)) m) -> In (fst x) (map fst m)).
    { intros x Hx. apply in_flat_map in Hx. destruct Hx as ([k' b'] & Hin & Hx).
      apply in_map_iff in Hx. destruct Hx as (y & <- & _). simpl. apply in_map_iff. exists (k', b'). auto. }
    assert (N1 : NoDup (map (pair k) (filter b day_list))).
    { apply NoDup_map_inj; [intros x y _ _ H; congruence|]. apply NoDup_filter, day_list_nodup. }
    revert N1 Hd. induction (map (pair k) (filter b day_list)) as [|x l IHl]; simpl; intros N1 Hd; [auto|].
    inversion N1; subst. constructor.
    - rewrite in_app_iff. intros [H|H]; auto. apply Hni. rewrite <- (Hd x) by auto. now apply Hd'.
    - apply IHl; auto.
  Qed.

  (** Grouping a duplicate free list of (key, day) entries loses and adds nothing. *)
  Lemma group_permutation ents prev0 :
    NoDup ents -> (forall k d, In (k, d) ents -> 0 <= d < 512 /\ k <> prev0) ->
    Permutation (flat_map (fun kb => map (pair (fst kb)) (filter (snd kb) day_list)) (group_loop eqb ents prev0 [])) ents.
  Proof.
    intros Hnd He.
    destruct (group_loop_spec ents prev0 []) as (H1 & H2 & H3); [constructor| |].
    { intros k d Hin ->. exfalso. destruct (He _ _ Hin). auto. }
    set (m := group_loop eqb ents prev0 []) in *.
    apply NoDup_Permutation; auto.
    - now apply NoDup_flat_pairs.
    - intros [k d]. rewrite in_flat_map. split.
      + intros ([k' b] & Hin & Hx). apply in_map_iff in Hx. destruct Hx as (d' & Heq & Hd). simpl in *.
        injection Heq as -> ->. apply filter_In in Hd. destruct Hd as [_ Hb].
        destruct (proj1 (H2 k d)) as [(b' & [] & _)|H]; auto. exists b. auto.
      + intros Hin. destruct (proj2 (H2 k d)) as (b & Hb1 & Hb2); auto.
        exists (k, b). split; auto. simpl. apply in_map. apply filter_In. split; auto.
        apply day_list_in. now apply (He k d).
  Qed.
End GroupProofs.

Lemma key_eqb_spec a b : key_eqb a b = true <-> a = b.
Proof.
  unfold key_eqb. destruct a as [a1 a2], b as [b1 b2]. simpl. rewrite andb_true_iff, !Z.eqb_eq.
  split; [intros [-> ->]; auto|intros [= -> ->]; auto].
Qed.
Lemma seq_eqb_spec a b : seq_eqb a b = true <-> a = b.
Proof. unfold seq_eqb. destruct (list_eq_dec Z.eq_dec a b); intuition congruence. Qed.

(** ** Times *)
Lemma running_max_ge p l x : In x (running_max p l) -> p <= x.
Proof.
  revert p. induction l as [|y l IH]; simpl; intros p H; [tauto|].
  destruct H as [<-|H]; [lia|]. apply IH in H. lia.
Qed.
Lemma running_max_length p l : length (running_max p l) = length l.
Proof. revert p; induction l; simpl; intros; auto. Qed.
Lemma running_max_mono p l i j : (i <= j < length l)%nat -> nth i (running_max p l) 0 <= nth j (running_max p l) 0.
Proof.
  revert p i j. induction l as [|y l IH]; simpl; intros p i j H; [lia|].
  destruct j as [|j]; [replace i with 0%nat by lia; lia|]. destruct i as [|i].
  - assert (Hin : In (nth j (running_max (Z.max p y) l) 0) (running_max (Z.max p y) l))
      by (apply nth_In; rewrite running_max_length; lia).
    apply running_max_ge in Hin. exact Hin.
  - apply IH. lia.
Qed.
Lemma running_max_le p l b : p <= b -> (forall x, In x l -> x <= b) -> forall x, In x (running_max p l) -> x <= b.
Proof.
  revert p. induction l as [|y l IH]; simpl; intros p Hp Hl x H; [tauto|].
  destruct H as [<-|H].
  - assert (y <= b) by auto. lia.
  - eapply IH; [| |exact H]; auto. assert (y <= b) by auto. lia.
Qed.
Fixpoint increasing (p : Z) (l : list Z) : Prop := match l with [] => True | x :: r => p <= x /\ increasing x r end.
Lemma running_max_id p l : increasing p l -> running_max p l = l.
Proof.
  revert p. induction l as [|y l IH]; simpl; intros p H; auto. destruct H as [H1 H2].
  rewrite Z.max_r by lia. f_equal. auto.
Qed.

Lemma to_i16_range z : -32768 <= to_i16 z <= 32767.
Proof. unfold to_i16. pose proof (Z.mod_pos_bound (z + 32768) 65536). lia. Qed.
Lemma to_i16_id z : -32768 <= z <= 32767 -> to_i16 z = z.
Proof. intros. unfold to_i16. rewrite Z.mod_small; lia. Qed.

(** Local times of one trip: dep(0), arr(1), dep(1), ... minus the trip's frequency offset. *)
Fixpoint local_times (offset : Z) (evs : list stop_events) : list Z :=
  match evs with
  | from :: ((to :: _) as rest) => (se_dep from - offset) :: (se_arr to - offset) :: local_times offset rest
  | _ => []
  end.
Lemma section_times_local o z evs :
  (forall t, In t (local_times o evs) -> -32768 <= t - z <= 32767) ->
  section_times (o + z) evs = map (fun t => t - z) (local_times o evs).
Proof.
  induction evs as [|e evs IH]; [reflexivity|]. destruct evs as [|e' evs]; [reflexivity|].
  cbn [section_times local_times map] in *. intros H.
  rewrite IH by (intros t Ht; apply H; simpl; auto).
  assert (H0 := H (se_dep e - o) ltac:(now left)). assert (H1 := H (se_arr e' - o) ltac:(right; now left)).
  rewrite !to_i16_id by lia. do 2 (f_equal; try lia).
Qed.
Lemma section_times_range sh evs x : In x (section_times sh evs) -> -32768 <= x <= 32767.
Proof.
  induction evs as [|e evs IH]; [simpl; tauto|]. destruct evs as [|e' evs]; [simpl; tauto|].
  cbn [section_times]. intros [<-|[<-|H]]; try apply to_i16_range. auto.
Qed.
Lemma section_times_length sh evs : length (section_times sh evs) = (2 * (length evs - 1))%nat.
Proof.
  induction evs as [|e evs IH]; auto. destruct evs as [|e' evs]; auto.
  cbn [section_times length] in *. rewrite IH. lia.
Qed.
