(** Proofs about get_fastest_direct. *)
From Coq Require Import List ZArith Bool Arith Lia Permutation.
From Verif Require Import Base Time_Model Raptor_Model Dial_Model Dial_Proofs Dijkstra_Model Dijkstra_Proofs Query_Model Fd_Model.
Import ListNotations.
Local Open Scope Z_scope.

Section FD.
  Variable L : Dijkstra_Model.locations.
  Variable footpaths_out footpaths_in : nat -> list (nat * Z).
  Variable kEnd : nat.
  Variable q : fd_query.
  Variable fwd : bool.
  Variable max_dist : Z.
  Notation FP := (if fwd then footpaths_out else footpaths_in).
  Notation dofs := (dest_offset q).
  Notation D0 := (start_dists L q).
  Notation KU := kUnreachableDirect.

  (** Locations and times reached by walking, passing only destination targets. *)
  Inductive W : nat -> Z -> Prop :=
  | W_start l d : In (l, d) (start_entries L q) -> W l (to_u16 d)
  | W_hop u v d w : W u d -> In (v, w) (FP u) -> dofs v <> None -> W v (d + hop_time q w).

  Lemma to_u16_range z : 0 <= to_u16 z <= 65535.
  Proof. unfold to_u16. pose proof (Z.mod_pos_bound z 65536 ltac:(lia)). lia. Qed.

  Lemma add_dest_find m t d x : find (fun e : nat * Z => Nat.eqb (fst e) x) (add_dest m t d) =
    if Nat.eqb t x then Some (t, match find (fun e : nat * Z => Nat.eqb (fst e) x) m with Some e => Z.min (snd e) d | None => d end)
    else find (fun e : nat * Z => Nat.eqb (fst e) x) m.
  Proof.
    induction m as [|[a b] m IH]; cbn.
    - destruct (Nat.eqb_spec t x); auto.
    - destruct (Nat.eqb_spec a t) as [->|Hat]; cbn.
      + destruct (Nat.eqb_spec t x) as [->|Hx]; cbn; [|auto]. do 2 f_equal. destruct (Z.ltb_spec d b); lia.
      + rewrite IH. destruct (Nat.eqb_spec t x) as [->|Hx]; auto.
        destruct (Nat.eqb_spec a x) as [->|]; [congruence|auto].
  Qed.
  (** The smallest offset of every target. *)
  Lemma dofs_spec l :
    (forall o, dofs l = Some o -> exists d, In (l, d) (f_dest q) /\ o = to_u16 d) /\
    (forall d, In (l, d) (f_dest q) -> exists o, dofs l = Some o /\ o <= to_u16 d).
  Proof.
    unfold dest_offset, dest_offsets.
    assert (G : forall ds m,
      let r := option_map snd (find (fun x : nat * Z => Nat.eqb (fst x) l)
                 (fold_left (fun m (o : nat * Z) => add_dest m (fst o) (to_u16 (snd o))) ds m)) in
      let m0 := option_map snd (find (fun x : nat * Z => Nat.eqb (fst x) l) m) in
      (forall o, r = Some o -> m0 = Some o \/ exists d, In (l, d) ds /\ o = to_u16 d) /\
      (forall o, m0 = Some o -> exists o', r = Some o' /\ o' <= o) /\
      (forall d, In (l, d) ds -> exists o, r = Some o /\ o <= to_u16 d)).
    { induction ds as [|[t d] ds IH]; intros m r m0.
      - cbn in r. split; [left; exact H|]. split; [|intros ? []]. intros o Ho. exists o. split; [exact Ho|lia].
      - cbn [fold_left fst snd] in r. destruct (IH (add_dest m t (to_u16 d))) as (A & B & C). fold r in A, B, C.
        rewrite add_dest_find in A, B. destruct (Nat.eqb_spec t l) as [->|Hne]; cbn [option_map snd] in A, B.
        + split; [|split].
          * intros o Ho. destruct (A o Ho) as [E|(d' & Hd & E)]; [|right; exists d'; split; [now right|auto]].
            injection E as <-. unfold m0. destruct (find _ m) as [[a b]|]; cbn.
            -- destruct (Z.min_spec b (to_u16 d)) as [[_ ->]|[_ ->]]; [left; auto|right; exists d; split; [now left|auto]].
            -- right. exists d. split; [now left|auto].
          * intros o Ho. destruct (B _ eq_refl) as (o' & E & Hle). exists o'. split; [exact E|]. unfold m0 in Ho.
            destruct (find _ m) as [[a b]|]; cbn in *; [|discriminate]. injection Ho as <-. lia.
          * intros e [[= <-]|He]; [|now apply C]. destruct (B _ eq_refl) as (o' & E & Hle). exists o'. split; [exact E|].
            destruct (find _ m) as [[a b]|]; cbn in *; lia.
        + split; [|split].
          * intros o Ho. destruct (A o Ho) as [E|(d' & Hd & E)]; [left; exact E|right; exists d'; split; [now right|auto]].
          * exact B.
          * intros e [[= E1 E2]|He]; [congruence|now apply C]. }
    destruct (G (f_dest q) []) as (A & _ & C). split; [|exact C].
    intros o Ho. destruct (A o Ho) as [E|H]; [discriminate|exact H].
  Qed.
  Lemma dofs_range l o : dofs l = Some o -> 0 <= o <= 65535.
  Proof. intros H. apply (proj1 (dofs_spec l)) in H as (d & _ & ->). apply to_u16_range. Qed.

  (** Start distances. *)
  Lemma D0_spec l : (forall d, In (l, d) (start_entries L q) -> D0 l <= to_u16 d) /\ 0 <= D0 l <= KU /\
    (D0 l < KU -> exists d, In (l, d) (start_entries L q) /\ D0 l = to_u16 d).
  Proof.
    unfold start_dists.
    assert (G : forall es (D : nat -> Z), 0 <= D l <= KU ->
      let r := fold_left (fun dists (e : nat * Z) => upd dists (fst e) (Z.min (to_u16 (snd e)) (dists (fst e)))) es D l in
      (forall d, In (l, d) es -> r <= to_u16 d) /\ 0 <= r <= D l /\ (r < D l -> exists d, In (l, d) es /\ r = to_u16 d)).
    { induction es as [|[t d] es IH]; intros D HD r; [split; [intros ? []|split; [cbn in r; unfold r; lia|cbn in r; unfold r; lia]]|].
      cbn [fold_left fst snd] in r. set (D1 := upd D t (Z.min (to_u16 d) (D t))) in r.
      assert (H1 : D1 l = if Nat.eqb t l then Z.min (to_u16 d) (D l) else D l).
      { unfold D1, upd. destruct (Nat.eqb_spec t l); subst; auto. }
      pose proof (to_u16_range d) as Hu.
      destruct (IH D1) as (A & B & C); [rewrite H1; destruct (Nat.eqb t l); lia|]. fold r in A, B, C. rewrite H1 in B, C.
      destruct (Nat.eqb_spec t l) as [->|Hne].
      - split; [intros e [[= <-]|He]; [lia|auto]|]. split; [lia|].
        intros Hr. destruct (Z.lt_ge_cases r (Z.min (to_u16 d) (D l))) as [H|H].
        + destruct (C H) as (e & He & E). exists e. split; [now right|auto].
        + exists d. split; [now left|lia].
      - split; [intros e [[= E1 E2]|He]; [congruence|auto]|]. split; [lia|].
        intros Hr. destruct (C Hr) as (e & He & E). exists e. split; [now right|auto]. }
    destruct (G (start_entries L q) (fun _ => KU)) as (A & B & C); [unfold KU; lia|]. split; [exact A|]. split; [exact B|exact C].
  Qed.
  Lemma hop_range d : 0 <= hop_time q d <= 65535.
  Proof. unfold hop_time, adjusted_transfer_time. destruct (t_default (f_tts q)); apply to_u16_range. Qed.
  Lemma W_nonneg v d : W v d -> 0 <= d.
  Proof. induction 1 as [l d H|u v d w _ IH _ _]; [apply to_u16_range|pose proof (hop_range w); lia]. Qed.

  Notation nb := (Z.to_nat max_dist).
  Hypothesis max_range : 0 < max_dist <= 65535.
  Definition lim (d : Z) : Prop := d < KU /\ d < max_dist.

  (** Finitely many locations can ever be queued. *)
  Variable N : nat.
  Hypothesis N_start : forall l d, In (l, d) (start_entries L q) -> (l < N)%nat.
  Hypothesis N_dest : forall l d, In (l, d) (f_dest q) -> (l < N)%nat.
  Lemma N_dofs l : dofs l <> None -> (l < N)%nat.
  Proof. intros H. destruct (dofs l) as [o|] eqn:E; [|congruence]. apply (proj1 (dofs_spec l)) in E as (d & Hd & _). eapply N_dest, Hd. Qed.

  Hypothesis no_end_start : forall d, ~ In (kEnd, d) (start_entries L q).
  Hypothesis no_end_dest : forall d, ~ In (kEnd, d) (f_dest q).
  Lemma dofs_not_end v : dofs v <> None -> v <> kEnd.
  Proof.
    intros H ->. destruct (dofs kEnd) as [o|] eqn:E; [|congruence]. apply (proj1 (dofs_spec kEnd)) in E as (x & Hx & _). eapply no_end_dest, Hx.
  Qed.

  Definition rel (D : nat -> Z) (v : nat) (es : list (nat * Z)) : Prop :=
    forall u w, In (u, w) es -> dofs u <> None -> lim (D v + hop_time q w) -> D u <= D v + hop_time q w.
  Record inv (D : nat -> Z) (pq : dial label) : Prop := mk_inv {
    i_dial : dinv get_bucket nb pq;
    i_queue : forall l d, In (l, d) (content pq) -> (l < N)%nat /\ 0 <= d /\ D l <= d /\ l <> kEnd;
    i_range : forall v, 0 <= D v <= D0 v;
    i_walk : forall v, D v < KU -> W v (D v);
    i_mem : forall l d, In (l, d) (content pq) -> d < max_dist }.
  Definition settled (D : nat -> Z) (pq : dial label) (v : nat) : Prop :=
    D v < KU -> In (v, D v) (content pq) \/ rel D v (FP v).
  Definition meas (D : nat -> Z) (pq : dial label) : nat := (length (content pq) + total D N)%nat.

  Lemma relax_spec l d es : forall D pq,
    incl es (FP l) -> inv D pq -> D l = d -> d < KU ->
    (forall v, v <> l -> settled D pq v) ->
    exists D' pq', fold_left (relax q max_dist d) es (Some (D, pq)) = Some (D', pq') /\
      inv D' pq' /\ D' l = d /\
      (forall v, v <> l -> settled D' pq' v) /\
      (forall v, D' v <= D v) /\
      (forall v, D' v = D v \/ In (v, D' v) (content pq')) /\
      rel D' l es /\
      (forall x, In x (content pq) -> In x (content pq')) /\
      (meas D' pq' <= meas D pq)%nat.
  Proof.
    induction es as [|[u w] es IH]; intros D pq Hin Hi Hd Hd2 Hs.
    - exists D, pq. simpl. split; [reflexivity|]. do 3 (split; [auto|]). split; [intros; lia|].
      split; [auto|]. split; [intros ? ? []|]. auto.
    - assert (Hin' : incl es (FP l)) by (intros x Hx; apply Hin; now right).
      pose proof (hop_range w) as Hw.
      destruct Hi as [Hdi Hq Hr Hwk Hnb].
      pose proof Hdi as (Hlen & _).
      assert (SKIP : (dofs u <> None -> lim (d + hop_time q w) -> D u <= d + hop_time q w) ->
        relax q max_dist d (Some (D, pq)) (u, w) = Some (D, pq) ->
        exists D' pq', fold_left (relax q max_dist d) ((u, w) :: es) (Some (D, pq)) = Some (D', pq') /\
          inv D' pq' /\ D' l = d /\ (forall v, v <> l -> settled D' pq' v) /\ (forall v, D' v <= D v) /\
          (forall v, D' v = D v \/ In (v, D' v) (content pq')) /\
          rel D' l ((u, w) :: es) /\ (forall x, In x (content pq) -> In x (content pq')) /\ (meas D' pq' <= meas D pq)%nat).
      { intros Hok E. cbn [fold_left]. rewrite E.
        destruct (IH D pq Hin' ltac:(split; auto) Hd Hd2 Hs) as (d' & pq' & F & J1 & J2 & J3 & J4 & JC & J5 & J6 & J7).
        exists d', pq'. split; [exact F|]. do 3 (split; [auto|]). split; [auto|]. split; [auto|]. split; [|split; auto].
        intros a b [[= <- <-]|Hab]; [|now apply J5].
        rewrite J2. intros Hda Hb. specialize (Hok Hda Hb). specialize (J4 u). lia. }
      destruct (max_dist <? d + hop_time q w) eqn:E0; [|destruct (dofs u) as [ou|] eqn:Eu;
        [destruct ((d + hop_time q w <? D u) && (d + hop_time q w <? Z.of_nat nb) && (d + hop_time q w <? max_dist)) eqn:E|]].
      1, 3, 4: apply SKIP;
        [intros H1 [B1 B2]|cbn [relax fst snd]; rewrite ?E0, ?Eu, ?Hlen, ?E; reflexivity].
      + apply Z.ltb_lt in E0. lia.
      + rewrite !andb_false_iff, !Z.ltb_ge in E. lia.
      + congruence.
      + cbn [fold_left]. cbn [relax fst snd]. rewrite E0, Eu, Hlen, E. clear SKIP.
        rewrite !andb_true_iff, !Z.ltb_lt in E. destruct E as [[E1 E2] E3].
        assert (Hul : u <> l) by (intros ->; lia).
        pose proof (Hr l) as Hrl.
        destruct (push_spec get_bucket nb pq (u, d + hop_time q w) Hdi) as [Hpush Hpok].
        destruct Hpush as (pq1 & Ep). { unfold get_bucket; simpl. lia. }
        rewrite Ep. destruct (Hpok _ Ep) as (_ & Hdi1 & HP).
        set (d1 := upd D u (d + hop_time q w)).
        assert (Hkeep : forall x, In x (content pq) -> In x (content pq1)).
        { intros x Hx. apply (Permutation_in _ (Permutation_sym HP)). now right. }
        assert (Hnew : In (u, d + hop_time q w) (content pq1)).
        { apply (Permutation_in _ (Permutation_sym HP)). now left. }
        assert (Hmono : forall v, d1 v <= D v).
        { intros v. unfold d1. destruct (Nat.eq_dec u v) as [->|]; [rewrite upd_same; lia|rewrite upd_other by auto; lia]. }
        assert (HuN : (u < N)%nat) by (apply N_dofs; congruence).
        assert (Hi1 : inv d1 pq1).
        { split; auto.
          - intros a b Hab. apply (Permutation_in _ HP) in Hab. destruct Hab as [[= <- <-]|Hab].
            + split; auto. unfold d1. rewrite upd_same. split; [lia|]. split; [lia|apply dofs_not_end; congruence].
            + destruct (Hq _ _ Hab) as (? & ? & ? & ?). specialize (Hmono a). split; [auto|]. split; [lia|]. split; [lia|auto].
          - intros v. specialize (Hmono v). specialize (Hr v). unfold d1 in *.
            destruct (Nat.eq_dec u v) as [->|]; [rewrite upd_same in *; lia|rewrite upd_other in * by auto; lia].
          - intros v Hv. unfold d1 in *. destruct (Nat.eq_dec u v) as [->|].
            + rewrite upd_same. apply W_hop with l; [|apply Hin; now left|congruence].
              subst d. apply Hwk. lia.
            + rewrite upd_other in * by auto. auto.
          - intros a b Hab. apply (Permutation_in _ HP) in Hab. destruct Hab as [[= <- <-]|Hab]; [lia|]. eapply Hnb, Hab. }
        assert (Hl1 : d1 l = d) by (unfold d1; rewrite upd_other; auto).
        assert (Hs1 : forall v, v <> l -> settled d1 pq1 v).
        { intros v Hv Hlt. unfold d1 at 1. destruct (Nat.eq_dec u v) as [->|Hne].
          - left. rewrite upd_same. exact Hnew.
          - rewrite upd_other by auto.
            assert (Hlt' : D v < KU) by (unfold d1 in Hlt; rewrite upd_other in Hlt; auto).
            destruct (Hs v Hv Hlt') as [H|H]; [left; auto|right].
            intros a b Hab Hda. unfold d1 at 1 3. rewrite upd_other by auto. intros Hb.
            specialize (H a b Hab Hda Hb). specialize (Hmono a). lia. }
        destruct (IH d1 pq1 Hin' Hi1 Hl1 Hd2 Hs1) as (d' & pq' & F & J1 & J2 & J3 & J4 & JC & J5 & J6 & J7).
        exists d', pq'. split; [exact F|]. split; [auto|]. split; [auto|]. split; [auto|]. split; [|split; [|split; [|split]]].
        * intros v. specialize (J4 v). specialize (Hmono v). lia.
        * intros v. destruct (JC v) as [->|H]; [|now right]. unfold d1. destruct (Nat.eq_dec u v) as [->|].
          -- right. rewrite upd_same. now apply J6.
          -- left. now rewrite upd_other.
        * intros a b [[= <- <-]|Hab]; [|now apply J5]. intros _ _.
          specialize (J4 u). unfold d1 in J4. rewrite upd_same in J4. lia.
        * auto.
        * unfold meas in *. assert (Hm : (total d1 N < total D N)%nat).
          { apply total_upd; auto. lia. }
          rewrite (Permutation_length HP) in J7. simpl in J7. lia.
  Qed.

  (** The result so far covers every settled destination target. *)
  Definition covered (D : nat -> Z) (pq : dial label) (e : Z) : Prop :=
    forall v o, D v < KU -> dofs v = Some o -> lim (D v + o) -> In (v, D v) (content pq) \/ e <= D v + o.
  Definition achieved (e : Z) : Prop := e = KU \/ (lim e /\ exists v d o, W v d /\ dofs v = Some o /\ e = d + o).

  Definition optimal (e : Z) : Prop :=
    achieved e /\ forall v d o, W v d -> dofs v = Some o -> lim (d + o) -> e <= d + o.

  Lemma finish D pq e : content pq = [] -> inv D pq -> (forall v, settled D pq v) -> covered D pq e -> achieved e -> optimal e.
  Proof.
    intros E Hi Hs Hc Ha. split; [exact Ha|].
    assert (HW : forall v d, W v d -> lim d -> D v <= d).
    { induction 1 as [l d H|u v d w HWu IH He Hv]; intros [B1 B2].
      - pose proof (i_range _ _ Hi l). pose proof (proj1 (D0_spec l) d H). lia.
      - pose proof (hop_range w) as Hh. assert (Hb : lim d) by (unfold lim; lia). specialize (IH Hb).
        assert (Hlt : D u < KU) by (unfold lim in *; lia).
        destruct (Hs u Hlt) as [H|H]; [rewrite E in H; destruct H|].
        assert (lim (D u + hop_time q w)) as Hl by (unfold lim; lia). specialize (H v w He Hv Hl). lia. }
    intros v d o Hw Ho [B1 B2]. pose proof (dofs_range v o Ho).
    assert (Hb : lim d) by (unfold lim; lia). specialize (HW v d Hw Hb).
    destruct Hb. destruct (Hc v o ltac:(lia) Ho) as [HX|HX]; [unfold lim; lia|rewrite E in HX; destruct HX|lia].
  Qed.

  Lemma loop_spec fuel : forall D pq e, inv D pq -> (forall v, settled D pq v) -> covered D pq e -> achieved e ->
    (meas D pq <= fuel)%nat ->
    exists r, fd_loop footpaths_out footpaths_in kEnd q fwd max_dist fuel D pq e = Done r /\ optimal r.
  Proof.
    induction fuel as [|fuel IH]; intros D pq e Hi Hs Hc Ha Hf.
    - assert (E : content pq = []) by (unfold meas in Hf; destruct (content pq); auto; simpl in Hf; lia).
      pose proof Hi as [(_ & Hsz & _) _ _ _ _].
      assert (Ee : dial_empty pq = true) by (unfold dial_empty; rewrite Hsz, E; reflexivity).
      exists e. simpl. rewrite Ee. split; auto. eapply finish; eauto.
    - cbn [fd_loop]. destruct (dial_empty pq) eqn:Ee.
      + exists e. split; auto. pose proof Hi as [(_ & Hsz & _) _ _ _ _].
        unfold dial_empty in Ee. apply Nat.eqb_eq in Ee. rewrite Hsz in Ee.
        assert (E : content pq = []) by (destruct (content pq); auto; discriminate). eapply finish; eauto.
      + assert (Hne : content pq <> []).
        { intros E. destruct Hi as [(_ & Hsz & _) _ _ _ _]. unfold dial_empty in Ee. rewrite Hsz, E in Ee. discriminate. }
        destruct (top_spec get_bucket nb pq (i_dial _ _ Hi) Hne) as (l & pq1 & Et & _ & _ & _ & Hin & _ & Ep & _).
        destruct (pop_spec get_bucket nb pq (i_dial _ _ Hi) Hne) as (l' & pq0 & pq2 & Et' & Ep' & Hd2 & HP).
        rewrite Et in Et'. injection Et' as <- <-. rewrite Et, Ep, Ep'.
        destruct l as [l d]. cbn [fst snd].
        destruct (i_queue _ _ Hi l d Hin) as (HlN & Hd0 & Hld & Hle).
        destruct (Nat.eqb_spec l kEnd) as [Ek|_]; [contradiction|].
        assert (Hsub : forall x, In x (content pq2) -> In x (content pq)).
        { intros x Hx. apply (Permutation_in _ (Permutation_sym HP)). now right. }
        assert (Hi2 : inv D pq2).
        { destruct Hi as [Hdi Hq Hr Hwk Hnb]. split; auto. intros a b Hab. eapply Hnb, Hsub, Hab. }
        assert (Hm2 : (meas D pq2 < meas D pq)%nat).
        { unfold meas. rewrite (Permutation_length HP). simpl. lia. }
        assert (Hsplit : forall v x, In (v, x) (content pq) -> (v, x) = (l, d) \/ In (v, x) (content pq2)).
        { intros v x Hx. apply (Permutation_in _ HP) in Hx. destruct Hx as [<-|Hx]; auto. }
        destruct (Z.ltb_spec (D l) d) as [Hlt|Hge].
        * apply IH; auto; [| |lia].
          -- intros v Hv. destruct (Hs v Hv) as [H|H]; auto. left.
             destruct (Hsplit _ _ H) as [[= E1 E2]|H']; auto. subst v. lia.
          -- intros v o Hv Ho Hl. destruct (Hc v o Hv Ho Hl) as [H|H]; auto.
             destruct (Hsplit _ _ H) as [[= E1 E2]|H']; auto. subst v. lia.
        * assert (Hd : D l = d) by lia.
          pose proof (i_range _ _ Hi l) as Hrl. pose proof (proj1 (proj2 (D0_spec l))) as HD0.
          assert (HR : reach_end q max_dist l d e <= e).
          { unfold reach_end. destruct (dofs l) as [o|]; [|lia]. destruct (_ && _) eqn:E; [|lia]. rewrite andb_true_iff, !Z.ltb_lt in E. lia. }
          destruct (Z.lt_ge_cases d KU) as [Hlt|Hge2].
          -- destruct (relax_spec l d (FP l) D pq2 (incl_refl _) Hi2 Hd Hlt) as (d' & pq' & F & J1 & J2 & J3 & J4 & JC & J5 & J6 & J7).
             { intros v Hv Hlv. destruct (Hs v Hlv) as [H|H]; auto. left.
               destruct (Hsplit _ _ H) as [[= E1 E2]|H']; auto. congruence. }
             rewrite F. apply IH; auto; [| | |lia].
             ++ intros v. destruct (Nat.eq_dec v l) as [->|Hv]; auto. intros _. right. exact J5.
             ++ intros v o Hv Ho Hl. destruct (Nat.eq_dec v l) as [->|Hvl].
                ** right. rewrite J2 in *. unfold reach_end. rewrite Ho. destruct (Z.ltb_spec (d + o) max_dist), (Z.ltb_spec (d + o) e); cbn; unfold lim in Hl; lia.
                ** destruct (JC v) as [E|H]; [|left; exact H]. rewrite E in *.
                   destruct (Hc v o Hv Ho Hl) as [H|H]; [|right; lia].
                   destruct (Hsplit _ _ H) as [[= E1 E2]|H']; [congruence|left; auto].
             ++ unfold reach_end. destruct (dofs l) as [o|] eqn:Eo; [|exact Ha]. destruct (_ && _) eqn:E; [|exact Ha].
                rewrite andb_true_iff, !Z.ltb_lt in E. right. split.
                ** unfold lim. destruct Ha as [->|[[? ?] _]]; lia.
                ** exists l, d, o. split; [|auto]. subst d. apply (i_walk _ _ Hi). lia.
          -- assert (HKU : e <= KU) by (destruct Ha as [->|[[? ?] _]]; lia).
             assert (F : fold_left (relax q max_dist d) (FP l) (Some (D, pq2)) = Some (D, pq2)).
             { generalize (FP l). induction l0 as [|[u w] es IHes]; cbn [fold_left]; auto.
               assert (E : relax q max_dist d (Some (D, pq2)) (u, w) = Some (D, pq2)).
               { cbn [relax fst snd]. destruct (_ <? _); auto. destruct (dofs u); auto.
                 pose proof (hop_range w). pose proof (i_range _ _ Hi u). pose proof (proj1 (proj2 (D0_spec u))).
                 destruct (Z.ltb_spec (d + hop_time q w) (D u)); [lia|]. reflexivity. }
               rewrite E. exact IHes. }
             rewrite F.
             assert (ER : reach_end q max_dist l d e = e).
             { unfold reach_end. destruct (dofs l) as [o|] eqn:Eo; auto. pose proof (dofs_range _ _ Eo).
               destruct (Z.ltb_spec (d + o) e); [lia|]. now rewrite andb_false_r. }
             rewrite ER. apply IH; auto; [| |lia].
             ++ intros v Hv. destruct (Hs v Hv) as [H|H]; auto. left.
                destruct (Hsplit _ _ H) as [[= E1 E2]|H']; auto. subst v. lia.
             ++ intros v o Hv Ho Hl. destruct (Hc v o Hv Ho Hl) as [H|H]; auto.
                destruct (Hsplit _ _ H) as [[= E1 E2]|H']; auto. subst v. lia.
  Qed.

  (** Setting up the queue. *)
  Definition keys_ok (keys : list nat) : Prop := forall l, In l keys <-> exists d, In (l, d) (start_entries L q).
  Hypothesis starts_fit : forall l d, In (l, d) (start_entries L q) -> D0 l < max_dist.
  Lemma dinv_queue : dinv get_bucket nb (new_queue max_dist) /\ content (new_queue max_dist) = [].
  Proof.
    assert (E : new_queue max_dist = dial_new (nb - 1)).
    { unfold new_queue, dial_new. do 2 f_equal. lia. }
    rewrite E. replace nb with (nb - 1 + 1)%nat at 1 by lia. split; [apply dinv_new|].
    unfold content, dial_new. cbn. induction (nb - 1 + 1)%nat; cbn; auto.
  Qed.
  Lemma push_starts_spec keys : (forall l, In l keys -> exists d, In (l, d) (start_entries L q)) ->
    exists pq, push_starts L q max_dist keys = Some pq /\ dinv get_bucket nb pq /\
      (forall x, In x (content pq) <-> exists l, In l keys /\ x = (l, D0 l)).
  Proof.
    unfold push_starts. intros Hk. destruct dinv_queue as [Hd Hcn].
    assert (G : forall ks pq0, (forall l, In l ks -> exists d, In (l, d) (start_entries L q)) -> dinv get_bucket nb pq0 ->
      exists pq, fold_left (fun pq l => match pq with Some pq => dial_push get_bucket pq (l, D0 l) | None => None end) ks (Some pq0) = Some pq /\
        dinv get_bucket nb pq /\ (forall x, In x (content pq) <-> In x (content pq0) \/ exists l, In l ks /\ x = (l, D0 l))).
    { induction ks as [|k ks IH]; intros pq0 Hks Hd0.
      - exists pq0. split; [reflexivity|]. split; [exact Hd0|]. intros x. split; [auto|]. intros [H|(l & [] & _)]; auto.
      - cbn [fold_left]. destruct (push_spec get_bucket nb pq0 (k, D0 k) Hd0) as [Hpush Hpok].
        destruct (Hks k (or_introl eq_refl)) as (d & Hd1). pose proof (starts_fit k d Hd1). pose proof (proj1 (proj2 (D0_spec k))).
        destruct Hpush as (pq1 & Ep); [unfold get_bucket; cbn [snd]; lia|]. rewrite Ep.
        destruct (Hpok _ Ep) as (_ & Hd2 & HP).
        destruct (IH pq1 ltac:(intros; apply Hks; now right) Hd2) as (pq & E & Hd3 & HC). exists pq. split; [exact E|]. split; [exact Hd3|].
        intros x. rewrite HC. split.
        + intros [Hx|(l & Hl & Ex)]; [|right; exists l; split; [now right|auto]].
          apply (Permutation_in _ HP) in Hx. destruct Hx as [<-|Hx]; [right; exists k; split; [now left|auto]|now left].
        + intros [Hx|(l & [<-|Hl] & Ex)].
          * left. apply (Permutation_in _ (Permutation_sym HP)). now right.
          * left. subst x. apply (Permutation_in _ (Permutation_sym HP)). now left.
          * right. exists l. auto. }
    destruct (G keys (new_queue max_dist) Hk Hd) as (pq & E & Hd1 & HC). exists pq. split; [exact E|]. split; [exact Hd1|].
    intros x. rewrite HC, Hcn. split; [intros [[]|H]; exact H|auto].
  Qed.

  Lemma search_spec keys : keys_ok keys -> exists fuel0 r, optimal r /\ forall fuel, (fuel0 <= fuel)%nat ->
    match push_starts L q max_dist keys with
    | None => Undefined
    | Some pq => fd_loop footpaths_out footpaths_in kEnd q fwd max_dist fuel D0 pq KU
    end = Done r.
  Proof.
    intros Hk. destruct (push_starts_spec keys) as (pq & E & Hd & HC); [intros l Hl; now apply Hk|]. rewrite E.
    assert (Hi : inv D0 pq).
    { split; auto.
      - intros l d H. apply HC in H as (l' & H & [= -> ->]). apply Hk in H as (d & Hd1).
        pose proof (proj1 (proj2 (D0_spec l'))). split; [eapply N_start, Hd1|]. split; [lia|]. split; [lia|].
        intros ->. eapply no_end_start, Hd1.
      - intros v. pose proof (proj1 (proj2 (D0_spec v))). lia.
      - intros v Hv. destruct (proj2 (proj2 (D0_spec v)) Hv) as (d & Hd1 & ->). now apply W_start.
      - intros l d H. apply HC in H as (l' & H & [= -> ->]). apply Hk in H as (d & Hd1). eapply starts_fit, Hd1. }
    assert (HS : forall v, D0 v < KU -> In (v, D0 v) (content pq)).
    { intros v Hv. apply HC. exists v. split; auto. apply Hk. destruct (proj2 (proj2 (D0_spec v)) Hv) as (d & Hd1 & _). eauto. }
    exists (meas D0 pq).
    assert (G : forall fuel, (meas D0 pq <= fuel)%nat ->
      exists r, fd_loop footpaths_out footpaths_in kEnd q fwd max_dist fuel D0 pq KU = Done r /\ optimal r).
    { intros fuel Hf. apply loop_spec; auto.
      - intros v Hv. left. now apply HS.
      - intros v o Hv Ho Hl. left. now apply HS.
      - now left. }
    destruct (G _ (le_n _)) as (r & E1 & H1). exists r. split; [exact H1|]. intros fuel Hf.
    destruct (G fuel Hf) as (r' & E2 & H2). rewrite E2. f_equal. clear - H1 H2 max_range.
    destruct H1 as [[-> | (B1 & v & d & o & HW & Ho & E1)] O1], H2 as [[-> | (B2 & v' & d' & o' & HW' & Ho' & E2)] O2]; auto.
    - exfalso. subst r'. specialize (O1 v' d' o' HW' Ho' B2). unfold lim in B2. lia.
    - exfalso. subst r. specialize (O2 v d o HW Ho B1). unfold lim in B1. lia.
    - subst. specialize (O1 v' d' o' HW' Ho' B2). specialize (O2 v d o HW Ho B1). lia.
  Qed.
End FD.
