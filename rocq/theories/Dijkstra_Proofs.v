From Coq Require Import List ZArith Bool Arith Lia Permutation.
From Verif Require Import Base Time_Model Raptor_Model Dial_Model Dial_Proofs Dijkstra_Model.
Import ListNotations.
Local Open Scope Z_scope.

Lemma upd_same {A} (f : nat -> A) i x : upd f i x i = x.
Proof. unfold upd. now rewrite Nat.eqb_refl. Qed.
Lemma upd_other {A} (f : nat -> A) i j x : i <> j -> upd f i x j = f j.
Proof. intros. unfold upd. destruct (Nat.eqb_spec i j); congruence. Qed.

(** Walks through the graph, starting with the cost [start v] at [v] (if any). *)
Section Walks.
  Variable edges : nat -> list edge.
  Variable start : nat -> Z -> Prop.
  Inductive walk_cost : nat -> Z -> Prop :=
  | walk_here v d : start v d -> walk_cost v d
  | walk_edge u v d w : walk_cost u d -> In (v, w) (edges u) -> walk_cost v (d + w).
End Walks.

Section Generic.
  Variable edges : nat -> list edge.
  Variable N : nat.
  Variable max_dist : Z.
  Variable nb : nat.
  Hypothesis closed : forall u v w, In (v, w) (edges u) -> (v < N)%nat /\ 0 <= w.
  Hypothesis Hmax : max_dist <= 65535.
  Variable dists0 : nat -> Z.
  Hypothesis d0_range : forall v, 0 <= dists0 v <= 65535.

  Definition below (d : Z) : Prop := d < Z.of_nat nb /\ d < max_dist.
  Notation W := (walk_cost edges (fun v d => dists0 v = d /\ d < 65535)).

  Lemma W_nonneg v d : W v d -> 0 <= d.
  Proof.
    induction 1 as [v d [H _]|u v d w _ IH He].
    - specialize (d0_range v). lia.
    - destruct (closed _ _ _ He). lia.
  Qed.

  Definition relaxed (dists : nat -> Z) (v : nat) (es : list edge) : Prop :=
    forall u w, In (u, w) es -> below (dists v + w) -> dists u <= dists v + w.

  Record inv (dists : nat -> Z) (pq : dial label) : Prop := mk_inv {
    i_dial : dinv get_bucket nb pq;
    i_queue : forall l d, In (l, d) (content pq) -> (l < N)%nat /\ 0 <= d /\ dists l <= d;
    i_range : forall v, 0 <= dists v <= dists0 v;
    i_walk : forall v, dists v < 65535 -> W v (dists v);
    i_nb : forall v, dists v < 65535 -> dists v < Z.of_nat nb }.
  Definition settled (dists : nat -> Z) (pq : dial label) (v : nat) : Prop :=
    dists v < 65535 -> In (v, dists v) (content pq) \/ relaxed dists v (edges v).

  Fixpoint total (dists : nat -> Z) (n : nat) : nat :=
    match n with O => O | S n' => (Z.to_nat (dists n') + total dists n')%nat end.
  Definition measure (dists : nat -> Z) (pq : dial label) : nat := (length (content pq) + total dists N)%nat.

  Lemma total_upd dists v x n : (v < n)%nat -> 0 <= x < dists v -> (total (upd dists v x) n < total dists n)%nat.
  Proof.
    intros Hv Hx. induction n as [|n IH]; [lia|]. simpl.
    destruct (Nat.eq_dec v n) as [->|Hne].
    - rewrite upd_same.
      assert (E : total (upd dists n x) n = total dists n).
      { assert (G : forall m, (m <= n)%nat -> total (upd dists n x) m = total dists m).
        { induction m as [|m IHm]; intros; simpl; auto. rewrite upd_other by lia. rewrite IHm by lia. auto. }
        now apply G. }
      rewrite E. lia.
    - rewrite upd_other by auto. assert (v < n)%nat by lia. specialize (IH ltac:(auto)). lia.
  Qed.

  (** Relaxing the edges [es] of node [l] whose distance is [d]. *)
  Lemma expand_spec l d es : forall dists pq,
    incl es (edges l) -> inv dists pq -> dists l = d -> d < 65535 ->
    (forall v, v <> l -> settled dists pq v) ->
    exists dists' pq', fold_left (expand max_dist d) es (Some (dists, pq)) = Some (dists', pq') /\
      inv dists' pq' /\ dists' l = d /\
      (forall v, v <> l -> settled dists' pq' v) /\
      (forall v, dists' v <= dists v) /\
      relaxed dists' l es /\
      (forall x, In x (content pq) -> In x (content pq')) /\
      (measure dists' pq' <= measure dists pq)%nat.
  Proof.
    induction es as [|[u w] es IH]; intros dists pq Hin Hi Hd Hd2 Hs.
    - exists dists, pq. simpl. split; [reflexivity|]. do 3 (split; [auto|]). split; [intros; lia|].
      split; [intros ? ? []|]. auto.
    - assert (Hin' : incl es (edges l)) by (intros x Hx; apply Hin; now right).
      assert (Hc : (u < N)%nat /\ 0 <= w) by (eapply closed; apply Hin; now left).
      destruct Hc as [HuN Hw].
      destruct Hi as [Hdi Hq Hr Hwk Hnb].
      pose proof Hdi as (Hlen & _).
      simpl fold_left. cbn [expand fst snd]. rewrite Hlen.
      destruct ((d + w <? dists u) && (d + w <? Z.of_nat nb) && (d + w <? max_dist)) eqn:E.
      + rewrite !andb_true_iff, !Z.ltb_lt in E. destruct E as [[E1 E2] E3].
        assert (Hul : u <> l) by (intros ->; lia).
        pose proof (Hr l) as Hrl.
        destruct (push_spec get_bucket nb pq (u, d + w) Hdi) as [Hpush Hpok].
        destruct Hpush as (pq1 & Ep). { unfold get_bucket; simpl. lia. }
        rewrite Ep. destruct (Hpok _ Ep) as (_ & Hdi1 & HP).
        set (d1 := upd dists u (d + w)).
        assert (Hkeep : forall x, In x (content pq) -> In x (content pq1)).
        { intros x Hx. apply (Permutation_in _ (Permutation_sym HP)). now right. }
        assert (Hmono : forall v, d1 v <= dists v).
        { intros v. unfold d1. destruct (Nat.eq_dec u v) as [->|]; [rewrite upd_same; lia|rewrite upd_other by auto; lia]. }
        assert (Hi1 : inv d1 pq1).
        { split; auto.
          - intros a b Hab. apply (Permutation_in _ HP) in Hab. destruct Hab as [[= <- <-]|Hab].
            + split; auto. unfold d1. rewrite upd_same. lia.
            + destruct (Hq _ _ Hab) as (? & ? & ?). specialize (Hmono a). split; [auto|lia].
          - intros v. specialize (Hmono v). specialize (Hr v). unfold d1 in *.
            destruct (Nat.eq_dec u v) as [->|]; [rewrite upd_same in *; lia|rewrite upd_other in * by auto; lia].
          - intros v Hv. unfold d1 in *. destruct (Nat.eq_dec u v) as [->|].
            + rewrite upd_same. apply walk_edge with l; [|apply Hin; now left].
              subst d. apply Hwk. lia.
            + rewrite upd_other in * by auto. auto.
          - intros v Hv. unfold d1 in *. destruct (Nat.eq_dec u v) as [->|].
            + rewrite upd_same. lia.
            + rewrite upd_other in * by auto. auto. }
        assert (Hl1 : d1 l = d) by (unfold d1; rewrite upd_other; auto).
        assert (Hs1 : forall v, v <> l -> settled d1 pq1 v).
        { intros v Hv Hlt. unfold d1 at 1. destruct (Nat.eq_dec u v) as [->|Hne].
          - left. rewrite upd_same. apply (Permutation_in _ (Permutation_sym HP)). now left.
          - rewrite upd_other by auto.
            assert (Hlt' : dists v < 65535) by (unfold d1 in Hlt; rewrite upd_other in Hlt; auto).
            destruct (Hs v Hv Hlt') as [H|H]; [left; auto|right].
            intros a b Hab. unfold d1 at 1 3. rewrite upd_other by auto. intros Hb.
            specialize (H a b Hab Hb). specialize (Hmono a). lia. }
        destruct (IH d1 pq1 Hin' Hi1 Hl1 Hd2 Hs1) as (d' & pq' & F & J1 & J2 & J3 & J4 & J5 & J6 & J7).
        exists d', pq'. split; [exact F|]. split; [auto|]. split; [auto|]. split; [auto|]. split; [|split; [|split]].
        * intros v. specialize (J4 v). specialize (Hmono v). lia.
        * intros a b [[= <- <-]|Hab]; [|now apply J5]. intros _.
          specialize (J4 u). unfold d1 in J4. rewrite upd_same in J4. lia.
        * auto.
        * unfold measure in *. assert (Hm : (total d1 N < total dists N)%nat).
          { apply total_upd; auto. lia. }
          rewrite (Permutation_length HP) in J7. simpl in J7. lia.
      + assert (Hnot : below (d + w) -> dists u <= d + w).
        { intros [B1 B2]. rewrite !andb_false_iff, !Z.ltb_ge in E. lia. }
        destruct (IH dists pq Hin' ltac:(split; auto) Hd Hd2 Hs) as (d' & pq' & F & J1 & J2 & J3 & J4 & J5 & J6 & J7).
        exists d', pq'. split; [exact F|]. do 3 (split; [auto|]). split; [auto|]. split; [|split; auto].
        intros a b [[= <- <-]|Hab]; [|now apply J5].
        rewrite J2. intros Hb. specialize (Hnot Hb). specialize (J4 u). lia.
  Qed.

  Definition good (D : nat -> Z) : Prop :=
    (forall v, 0 <= D v <= dists0 v) /\
    (forall v, D v < 65535 -> W v (D v)) /\
    (forall v, D v < 65535 -> relaxed D v (edges v)) /\
    (forall v, D v < 65535 -> D v < Z.of_nat nb).

  Lemma loop_spec fuel : forall dists pq, inv dists pq -> (forall v, settled dists pq v) ->
    (measure dists pq <= fuel)%nat ->
    exists D, loop edges max_dist fuel dists pq = Done D /\ good D.
  Proof.
    induction fuel as [|fuel IH]; intros dists pq Hi Hs Hf.
    - assert (E : content pq = []) by (unfold measure in Hf; destruct (content pq); auto; simpl in Hf; lia).
      destruct Hi as [Hdi Hq Hr Hwk Hnb]. destruct Hdi as (_ & Hsz & _).
      assert (Ee : dial_empty pq = true) by (unfold dial_empty; rewrite Hsz, E; reflexivity).
      exists dists. simpl. rewrite Ee. split; auto. split; [auto|split; [auto|split; auto]].
      intros v Hv. destruct (Hs v Hv) as [H|H]; auto. rewrite E in H. destruct H.
    - simpl. destruct (dial_empty pq) eqn:Ee.
      + exists dists. split; auto. destruct Hi as [Hdi Hq Hr Hwk Hnb]. destruct Hdi as (_ & Hsz & _).
        unfold dial_empty in Ee. apply Nat.eqb_eq in Ee. rewrite Hsz in Ee.
        assert (E : content pq = []) by (destruct (content pq); auto; discriminate).
        split; [auto|split; [auto|split; auto]]. intros v Hv. destruct (Hs v Hv) as [H|H]; auto. rewrite E in H. destruct H.
      + assert (Hne : content pq <> []).
        { intros E. destruct Hi as [(_ & Hsz & _) _ _ _ _]. unfold dial_empty in Ee. rewrite Hsz, E in Ee. discriminate. }
        destruct (top_spec get_bucket nb pq (i_dial _ _ Hi) Hne) as (l & pq1 & Et & _ & _ & _ & Hin & _ & Ep & _).
        destruct (pop_spec get_bucket nb pq (i_dial _ _ Hi) Hne) as (l' & pq0 & pq2 & Et' & Ep' & Hd2 & HP).
        rewrite Et in Et'. injection Et' as <- <-. rewrite Et, Ep, Ep'.
        destruct l as [l d]. cbn [fst snd].
        destruct (i_queue _ _ Hi l d Hin) as (HlN & Hd0 & Hld).
        assert (Hsub : forall x, In x (content pq2) -> In x (content pq)).
        { intros x Hx. apply (Permutation_in _ (Permutation_sym HP)). now right. }
        assert (Hi2 : inv dists pq2).
        { destruct Hi as [Hdi Hq Hr Hwk Hnb]. split; auto. }
        destruct (Z.ltb_spec (dists l) d) as [Hlt|Hge].
        * apply IH; auto.
          -- intros v Hv. destruct (Hs v Hv) as [H|H]; auto. left.
             apply (Permutation_in _ HP) in H. destruct H as [H|H]; auto.
             injection H as -> ->. lia.
          -- unfold measure in *. rewrite (Permutation_length HP) in Hf. simpl in Hf. lia.
        * assert (Hd : dists l = d) by lia.
          assert (Hlt : d < 65535 \/ d = 65535).
          { pose proof (i_range _ _ Hi l). specialize (d0_range l). lia. }
          destruct Hlt as [Hlt|Heq].
          -- destruct (expand_spec l d (edges l) dists pq2 (incl_refl _) Hi2 Hd Hlt) as (d' & pq' & F & J1 & J2 & J3 & J4 & J5 & J6 & J7).
             { intros v Hv Hlv. destruct (Hs v Hlv) as [H|H]; auto. left.
               apply (Permutation_in _ HP) in H. destruct H as [H|H]; auto. injection H as -> _. congruence. }
             rewrite F. apply IH; auto.
             ++ intros v. destruct (Nat.eq_dec v l) as [->|Hv]; auto. intros _. right. exact J5.
             ++ unfold measure in *. rewrite (Permutation_length HP) in Hf. simpl in Hf. lia.
          -- (* d = 65535 : every relaxation fails *)
             assert (F : fold_left (expand max_dist d) (edges l) (Some (dists, pq2)) = Some (dists, pq2)).
             { assert (G : forall es, incl es (edges l) -> fold_left (expand max_dist d) es (Some (dists, pq2)) = Some (dists, pq2)).
               { induction es as [|[u w] es IHes]; intros Hes; simpl; auto.
                 assert (0 <= w) by (eapply closed; apply Hes; now left).
                 destruct (Z.ltb_spec (d + w) max_dist); [lia|]. rewrite andb_false_r.
                 apply IHes. intros x Hx. apply Hes. now right. }
               apply G, incl_refl. }
             rewrite F. apply IH; auto.
             ++ intros v Hv. destruct (Hs v Hv) as [H|H]; auto. left.
                apply (Permutation_in _ HP) in H. destruct H as [H|H]; auto.
                injection H as -> E. lia.
             ++ unfold measure in *. rewrite (Permutation_length HP) in Hf. simpl in Hf. lia.
  Qed.

  Lemma good_optimal (start : nat -> Z -> Prop) D : (forall v d, start v d -> dists0 v <= d) ->
    good D -> forall v d, walk_cost edges start v d -> below d -> 0 <= d /\ D v <= d.
  Proof.
    intros Hst (Hr & _ & Hrel & _) v d Hw. induction Hw as [v d H|u v d w Hw IH He]; intros Hb.
    - specialize (Hr v). specialize (Hst v d H). lia.
    - destruct (closed _ _ _ He) as [_ Hw0].
      assert (Hb' : below d) by (unfold below in *; lia).
      specialize (IH Hb'). pose proof (Hr u).
      assert (Hlt : D u < 65535) by (unfold below in *; lia).
      specialize (Hrel u Hlt v w He).
      assert (below (D u + w)) by (unfold below in *; lia). specialize (Hrel H0). lia.
  Qed.
End Generic.

Lemma fold_left_flat_map {A B C} (f : C -> B -> C) (g : A -> list B) (l : list A) (c : C) :
  fold_left f (flat_map g l) c = fold_left (fun c a => fold_left f (g a) c) l c.
Proof. revert c; induction l; intros; simpl; auto. now rewrite fold_left_app, IHl. Qed.

Section Init.
  Variable L : locations.
  Variable mode : match_mode.
  Variable dest td_dest : list (nat * Z).

  (** All offsets after matching: location, minutes. *)
  Definition offsets : list (nat * Z) :=
    flat_map (fun o : nat * Z => map (fun x => (x, snd o)) (metas L mode (fst o))) dest ++ td_dest.
  Hypothesis off_ok : forall x d, In (x, d) offsets -> 0 <= d <= 7200.

  Lemma insert_min_spec m l d : 0 <= d <= 7200 ->
    (forall r e, In (r, e) (insert_min m l d) -> In (r, e) m \/ (r = l /\ e = d)) /\
    (exists e, In (l, e) (insert_min m l d) /\ e <= d) /\
    (forall r e, In (r, e) m -> exists e', In (r, e') (insert_min m l d) /\ e' <= e).
  Proof.
    intros Hd. assert (E : to_u16 d = d) by (unfold to_u16; apply Z.mod_small; lia).
    assert (E2 : Z.min (to_u16 d) kUnreachable = d) by (rewrite E; unfold kUnreachable; lia).
    induction m as [|[x y] m IH]; simpl.
    - rewrite E2. split; [|split].
      + intros r e [[= <- <-]|[]]. auto.
      + exists d. split; [now left|lia].
      + intros r e [].
    - destruct (Nat.eqb_spec x l) as [->|Hne].
      + rewrite E. split; [|split].
        * intros r e [[= <- <-]|H]; [|left; now right].
          destruct (Z.min_spec d y) as [[_ ->]|[_ ->]]; auto.
        * exists (Z.min d y). split; [now left|lia].
        * intros r e [[= <- <-]|H]; [exists (Z.min d y); split; [now left|lia]|exists e; split; [now right|lia]].
      + destruct (Nat.ltb l x).
        * rewrite E2. split; [|split].
          -- intros r e [[= <- <-]|H]; auto.
          -- exists d. split; [now left|lia].
          -- intros r e H. exists e. split; [now right|lia].
        * destruct IH as (I1 & (e & I2 & I2') & I3). split; [|split].
          -- intros r e' [[= <- <-]|H]; [left; now left|]. destruct (I1 _ _ H) as [H'|H']; [left; now right|now right].
          -- exists e. split; [now right|auto].
          -- intros r e' [[= <- <-]|H]; [exists y; split; [now left|lia]|].
             destruct (I3 _ _ H) as (e2 & ? & ?). exists e2. split; [now right|auto].
  Qed.

  Lemma dest_min_spec :
    (forall r e, In (r, e) (dest_min L mode dest td_dest) -> exists x, In (x, e) offsets /\ get_root_idx L x = r) /\
    (forall x d, In (x, d) offsets -> exists e, In (get_root_idx L x, e) (dest_min L mode dest td_dest) /\ e <= d).
  Proof.
    unfold dest_min. fold offsets.
    assert (G : forall os, (forall x d, In (x, d) os -> 0 <= d <= 7200) -> forall m,
      let m' := fold_left (fun m (o : nat * Z) => insert_min m (get_root_idx L (fst o)) (snd o)) os m in
      (forall r e, In (r, e) m' -> In (r, e) m \/ exists x, In (x, e) os /\ get_root_idx L x = r) /\
      (forall x d, In (x, d) os -> exists e, In (get_root_idx L x, e) m' /\ e <= d) /\
      (forall r e, In (r, e) m -> exists e', In (r, e') m' /\ e' <= e)).
    { induction os as [|[x d] os IH]; intros Hos m; simpl.
      - split; [auto|split]; [intros ? ? []|]. intros r e H. exists e. split; [auto|lia].
      - destruct (insert_min_spec m (get_root_idx L x) d) as (A1 & (e0 & A2 & A2') & A3); [apply (Hos x); now left|].
        destruct (IH ltac:(intros; eapply Hos; right; eauto) (insert_min m (get_root_idx L x) d)) as (I1 & I2 & I3).
        split; [|split].
        + intros r e H. destruct (I1 _ _ H) as [H'|(y & Hy & Hr)].
          * destruct (A1 _ _ H') as [|[-> ->]]; auto. right. exists x. auto.
          * right. exists y. auto.
        + intros y e [[= <- <-]|H]; [|now apply I2].
          destruct (I3 _ _ A2) as (e1 & ? & ?). exists e1. split; auto. lia.
        + intros r e H. destruct (A3 _ _ H) as (e1 & H1 & ?). destruct (I3 _ _ H1) as (e2 & ? & ?).
          exists e2. split; auto. lia. }
    destruct (G offsets off_ok []) as (G1 & G2 & _). split; auto.
    intros r e H. destruct (G1 r e H) as [[]|]; auto.
  Qed.

  (** (location, minutes) pairs pushed initially. *)
  Definition seeds : list (nat * Z) :=
    flat_map (fun x => map (fun m => (m, snd x)) (metas L mode (fst x))) (dest_min L mode dest td_dest).

  Definition push_one (st : option ((nat -> Z) * dial label)) (x : nat * Z) :=
    match st with
    | None => None
    | Some (dists, pq) =>
        match dial_push get_bucket pq x with
        | Some pq' => Some (upd dists (fst x) (Z.min (snd x) (dists (fst x))), pq')
        | None => None
        end
    end.
  Lemma init_seeds : init L mode dest td_dest = fold_left push_one seeds (Some (fun _ => kUnreachable, dial_new (Z.to_nat kMaxTravelTime))).
  Proof.
    unfold init, seeds. rewrite fold_left_flat_map.
    generalize (Some (fun _ : nat => kUnreachable, @dial_new label (Z.to_nat kMaxTravelTime))).
    induction (dest_min L mode dest td_dest) as [|x m IH]; intros st; simpl; auto.
    rewrite IH. f_equal. unfold init_step. clear.
    revert st. induction (metas L mode (fst x)); intros st; simpl; auto.
  Qed.

  Lemma seeds_range v d : In (v, d) seeds -> 0 <= d <= 7200.
  Proof.
    unfold seeds. rewrite in_flat_map. intros ([r e] & H & Hin). apply in_map_iff in Hin.
    destruct Hin as (m & [= <- <-] & _). apply (proj1 dest_min_spec) in H. destruct H as (x & Hx & _).
    simpl. eapply off_ok; eauto.
  Qed.

  Definition NB : nat := (Z.to_nat kMaxTravelTime + 1)%nat.
  Lemma NB_Z : Z.of_nat NB = 7201. Proof. reflexivity. Qed.

  Lemma init_spec : exists dists pq, init L mode dest td_dest = Some (dists, pq) /\
    dinv get_bucket NB pq /\
    (forall x, In x (content pq) <-> In x seeds) /\
    (forall v d, In (v, d) seeds -> dists v <= d) /\
    (forall v, dists v = 65535 \/ In (v, dists v) seeds).
  Proof.
    rewrite init_seeds.
    assert (G : forall ss, (forall v d, In (v, d) ss -> 0 <= d <= 7200) -> forall dists pq,
      dinv get_bucket NB pq ->
      exists dists' pq', fold_left push_one ss (Some (dists, pq)) = Some (dists', pq') /\ dinv get_bucket NB pq' /\
        (forall x, In x (content pq') <-> In x ss \/ In x (content pq)) /\
        (forall v, dists' v <= dists v) /\
        (forall v d, In (v, d) ss -> dists' v <= d) /\
        (forall v, dists' v = dists v \/ In (v, dists' v) ss)).
    { induction ss as [|[v d] ss IH]; intros Hss dists pq Hd; cbn [fold_left].
      - exists dists, pq. split; auto. split; auto. split; [|split; [|split]]; auto.
        + simpl. tauto.
        + intros; lia.
        + intros ? ? [].
      - assert (Hvd : 0 <= d <= 7200) by (apply (Hss v); now left).
        destruct (push_spec get_bucket NB pq (v, d) Hd) as [He Hp].
        destruct He as (pq1 & E).
        { unfold get_bucket, NB, kMaxTravelTime. cbn [snd]. rewrite (Nat.add_comm (Z.to_nat 7200)).
          apply Nat.lt_succ_r. apply Z2Nat.inj_le; lia. }
        destruct (Hp _ E) as (_ & Hd1 & HP).
        cbn [push_one]. rewrite E. cbn [fst snd].
        destruct (IH ltac:(intros; eapply Hss; right; eauto) (upd dists v (Z.min d (dists v))) pq1 Hd1)
          as (d' & pq' & F & J1 & J2 & J3 & J4 & J5).
        exists d', pq'. split; [exact F|]. split; auto.
        assert (Hu : forall u, upd dists v (Z.min d (dists v)) u <= dists u).
        { intros u. destruct (Nat.eq_dec v u) as [->|]; [rewrite upd_same; lia|rewrite upd_other by auto; lia]. }
        split; [|split; [|split]].
        + intros x. rewrite J2. simpl. split.
          * intros [H|H]; auto. apply (Permutation_in _ HP) in H. destruct H; auto.
          * intros [[H|H]|H]; auto; right; apply (Permutation_in _ (Permutation_sym HP)); [now left|now right].
        + intros u. specialize (J3 u). specialize (Hu u). lia.
        + intros u e [[= <- <-]|H]; [|now apply J4]. specialize (J3 v). rewrite upd_same in J3. lia.
        + intros u. destruct (J5 u) as [H|H]; [|right; now right].
          destruct (Nat.eq_dec v u) as [->|]; [rewrite upd_same in H|rewrite upd_other in H by auto; auto].
          destruct (Z.min_spec d (dists u)) as [[_ Em]|[_ Em]]; rewrite Em in H; auto.
          right. left. now rewrite H. }
    destruct (G seeds seeds_range (fun _ => kUnreachable) (dial_new (Z.to_nat kMaxTravelTime))) as (d' & pq' & F & J1 & J2 & _ & J4 & J5).
    { apply dinv_new. }
    exists d', pq'. split; [exact F|]. split; auto. split; [|split; auto].
    intros x. rewrite J2. split; auto. intros [H|H]; auto.
    exfalso. unfold content, dial_new in H. cbn [q_buckets] in H.
    apply in_concat in H. destruct H as (l & Hl & Hx). apply repeat_spec in Hl. subst. destruct Hx.
  Qed.

  Variable edges : nat -> list edge.
  Hypothesis closed : forall u v w, In (v, w) (edges u) -> (v < lo_n L)%nat /\ 0 <= w.
  Hypothesis metas_ok : forall v d, In (v, d) seeds -> (v < lo_n L)%nat.
  Definition seed (v : nat) (d : Z) : Prop := In (v, d) seeds.

  (** The distances before they are handed down to child locations. *)
  Lemma search_spec : exists fuel0 pre, (forall fuel, (fuel0 <= fuel)%nat ->
      lower_bounds L mode dest td_dest edges fuel = Done (hand_down L pre)) /\
    (forall v, 0 <= pre v <= 7200 \/ pre v = 65535) /\
    (forall v, pre v <= 7200 -> walk_cost edges seed v (pre v)) /\
    (forall v d, walk_cost edges seed v d -> d <= 7200 -> 0 <= d /\ pre v <= d) /\
    (forall u v w, In (v, w) (edges u) -> pre u + w <= 7200 -> pre v <= pre u + w).
  Proof.
    destruct init_spec as (d0 & pq & E & Hd & Hc & Hs & Hv).
    assert (R0 : forall v, 0 <= d0 v <= 65535).
    { intros v. destruct (Hv v) as [->|H]; [lia|]. apply seeds_range in H. lia. }
    assert (R1 : forall v, d0 v < 65535 -> d0 v < Z.of_nat NB).
    { intros v H. rewrite NB_Z. destruct (Hv v) as [H'|H']; [lia|]. apply seeds_range in H'. lia. }
    assert (HI : inv edges (lo_n L) NB d0 d0 pq).
    { split; auto.
      - intros l d H. apply Hc in H. split; [eapply metas_ok; eauto|]. split; [apply (seeds_range l d H)|now apply Hs].
      - intros v. split; [apply R0|lia].
      - intros v H. constructor. auto. }
    exists (measure (lo_n L) d0 pq).
    assert (HL : forall fuel, (measure (lo_n L) d0 pq <= fuel)%nat ->
      exists D, loop edges 65535 fuel d0 pq = Done D /\ good edges 65535 NB d0 D).
    { intros fuel Hf. apply (loop_spec edges (lo_n L) 65535 NB closed ltac:(lia) d0 R0 fuel d0 pq HI); auto.
      intros v Hlt. left. apply Hc. destruct (Hv v); auto. lia. }
    assert (Hmono : forall fuel fuel' dd q D, loop edges 65535 fuel dd q = Done D -> (fuel <= fuel')%nat ->
                    loop edges 65535 fuel' dd q = Done D).
    { clear. induction fuel as [|f IH]; intros fuel' dd q D H Hf.
      - simpl in H. destruct (dial_empty q) eqn:Ee; [|discriminate].
        destruct fuel'; simpl; rewrite Ee; auto.
      - destruct fuel' as [|f']; [lia|]. simpl in *. destruct (dial_empty q); auto.
        destruct (dial_top q) as [[l q1]|]; auto. destruct (dial_pop q1) as [q2|]; auto.
        destruct (_ <? _); [apply IH; auto; lia|].
        destruct (fold_left _ _ _) as [[d' q3]|]; auto. apply IH; auto; lia. }
    destruct (HL _ (le_n _)) as (pre & El & HG).
    exists pre. split.
    { intros fuel Hf. unfold lower_bounds. rewrite E. now rewrite (Hmono _ _ _ _ _ El Hf). }
    pose proof HG as (G1 & G2 & G3 & G4).
    assert (Range : forall v, 0 <= pre v <= 7200 \/ pre v = 65535).
    { intros v. specialize (G1 v). specialize (R0 v). destruct (Z.lt_ge_cases (pre v) 65535) as [Hlt|]; [|lia].
      specialize (G4 v Hlt). rewrite NB_Z in G4. lia. }
    split; [exact Range|]. split; [|split].
    - intros v Hle. assert (Hlt : pre v < 65535) by lia. specialize (G2 v Hlt). clear - G2 Hv.
      induction G2 as [v d [H1 H2]|u v d w _ IH He].
      + constructor. destruct (Hv v) as [H|H]; [lia|]. unfold seed. now rewrite <- H1.
      + now apply walk_edge with u.
    - intros v d Hw Hle. apply (good_optimal edges (lo_n L) 65535 NB closed ltac:(lia) d0 seed pre); auto.
      unfold below. rewrite NB_Z. lia.
    - intros u v w He Hle. destruct (closed _ _ _ He) as [_ Hw0]. destruct (Range u) as [Hu|Hu]; [|lia].
      apply (G3 u ltac:(lia) v w He). unfold below. rewrite NB_Z. lia.
  Qed.
End Init.

(** ** Handing bounds down to children *)
Section HandDown.
  Variable L : locations.
  Hypothesis tree : forall i c, In c (lo_children L i) <-> (lo_parent L c = Some i /\ (c < lo_n L)%nat).
  Hypothesis parents_in : forall c i, lo_parent L c = Some i -> (i < lo_n L)%nat.
  (** Locations that have children themselves come after their own parent. *)
  Hypothesis order : forall c p, lo_children L c <> [] -> lo_parent L c = Some p -> (p < c)%nat.

  Definition hd_step (dists : nat -> Z) (i : nat) : nat -> Z :=
    let lb := dists i in
    fold_left (fun dists c => upd dists c (Z.min lb (dists c))) (lo_children L i) dists.

  Lemma hd_step_spec dists i v :
    hd_step dists i v = if existsb (Nat.eqb v) (lo_children L i) then Z.min (dists i) (dists v) else dists v.
  Proof.
    unfold hd_step. generalize (dists i) as lb. intros lb. revert dists.
    induction (lo_children L i) as [|c cs IH]; intros dists; simpl; auto.
    rewrite IH. destruct (Nat.eqb_spec v c) as [->|Hne]; simpl.
    - rewrite upd_same. destruct (existsb _ cs); auto. lia.
    - rewrite upd_other by congruence. reflexivity.
  Qed.
  Lemma child_iff i v : (v < lo_n L)%nat -> existsb (Nat.eqb v) (lo_children L i) = true <-> lo_parent L v = Some i.
  Proof.
    intros Hv. rewrite existsb_exists. split.
    - intros (x & Hx & E). apply Nat.eqb_eq in E. subst. now apply tree in Hx.
    - intros H. exists v. split; [now apply tree|apply Nat.eqb_refl].
  Qed.

  Definition hd_upto (k : nat) (pre : nat -> Z) : nat -> Z := fold_left hd_step (seq 0 k) pre.
  Lemma hd_S k pre : hd_upto (S k) pre = hd_step (hd_upto k pre) k.
  Proof. unfold hd_upto. rewrite seq_S, fold_left_app. reflexivity. Qed.
  Lemma hand_down_upto pre : hand_down L pre = hd_upto (lo_n L) pre.
  Proof. reflexivity. Qed.

  Lemma hd_none k pre v : (v < lo_n L)%nat -> (forall p, lo_parent L v = Some p -> (k <= p)%nat) -> hd_upto k pre v = pre v.
  Proof.
    intros Hv. induction k as [|k IH]; intros H; [reflexivity|].
    rewrite hd_S, hd_step_spec. destruct (existsb _ _) eqn:E.
    - apply child_iff in E; auto. apply H in E. lia.
    - apply IH. intros p Hp. specialize (H p Hp). lia.
  Qed.
  Lemma hd_some k pre v p : (v < lo_n L)%nat -> lo_parent L v = Some p -> (p < k)%nat ->
    hd_upto k pre v = Z.min (hd_upto p pre p) (pre v).
  Proof.
    intros Hv Hp. induction k as [|k IH]; intros Hk; [lia|].
    rewrite hd_S, hd_step_spec. destruct (existsb _ _) eqn:E.
    - apply child_iff in E; auto. assert (k = p) by congruence. subst k.
      f_equal. apply hd_none; auto. intros q Hq. assert (q = p) by congruence. lia.
    - apply IH. assert (k <> p); [|lia]. intros ->.
      apply (proj2 (child_iff p v Hv)) in Hp. congruence.
  Qed.
  Lemma hand_down_root pre v : (v < lo_n L)%nat -> lo_parent L v = None -> hand_down L pre v = pre v.
  Proof. intros Hv H. rewrite hand_down_upto. apply hd_none; auto. intros p Hp. congruence. Qed.
  Lemma hand_down_child pre v p : (v < lo_n L)%nat -> lo_parent L v = Some p ->
    hand_down L pre v = Z.min (hand_down L pre p) (pre v).
  Proof.
    intros Hv Hp. pose proof (parents_in _ _ Hp) as HpN. rewrite hand_down_upto.
    rewrite (hd_some _ _ _ _ Hv Hp HpN). f_equal.
    assert (Hc : lo_children L p <> []).
    { intros E. assert (In v (lo_children L p)) by (apply tree; auto). rewrite E in H. destruct H. }
    destruct (lo_parent L p) as [g|] eqn:Eg.
    - rewrite (hd_some p pre p g); auto. rewrite (hd_some (lo_n L) pre p g); auto. now apply parents_in with p.
    - rewrite !hd_none; auto; intros; congruence.
  Qed.
End HandDown.
