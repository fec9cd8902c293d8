From Coq Require Import List ZArith Bool Arith Lia Permutation Sorted.
From Verif Require Import Base Time_Model Raptor_Model Query_Model Dial_Model Dial_Proofs Dijkstra_Model Dijkstra_Proofs Foot_Model.
Import ListNotations.
Local Open Scope Z_scope.

(** * Specification *)
Section Spec.
  Variable n : nat.
  Variable raw : nat -> list (nat * Z).
  Variable ttime : nat -> Z.
  (** Walking along footpaths: each one takes at least the transfer times of both its ends. *)
  Inductive walk (a : nat) : nat -> Z -> Prop :=
  | walk_stay : walk a a 0
  | walk_on b c d w : walk a b d -> In (c, w) (raw b) -> walk a c (d + max3 (ttime b) (ttime c) w).
  Definition shortest (a b : nat) (d : Z) : Prop := walk a b d /\ forall d', walk a b d' -> d <= d'.
  (** [a] and [b] are linked to each other and to nothing else. *)
  Definition isolated_pair (a b : nat) : Prop :=
    a <> b /\ (exists w, In (b, w) (raw a)) /\
    (forall c w, In (c, w) (raw a) -> c = a \/ c = b) /\ (forall c w, In (c, w) (raw b) -> c = a \/ c = b).
  (** Footpaths are given in both directions with the same duration (below 256 minutes), at most one per pair. *)
  Record graph_ok : Prop := mk_graph_ok {
    go_range : forall a b d, In (b, d) (raw a) -> (a < n)%nat /\ (b < n)%nat /\ 0 <= d <= 255;
    go_sym : forall a b d, In (b, d) (raw a) -> In (a, d) (raw b);
    go_single : forall a b d d', In (b, d) (raw a) -> In (b, d') (raw a) -> d = d';
    go_ttime : forall l, 0 <= ttime l <= 255 }.
End Spec.

Lemma to_u8_id z : 0 <= z <= 255 -> to_u8 z = z.
Proof. intros. unfold to_u8. apply Z.mod_small. lia. Qed.

Lemma filter_length_le {A} (f : A -> bool) l : (length (filter f l) <= length l)%nat.
Proof. induction l as [|x l IH]; cbn [filter length]; [lia|]. destruct (f x); cbn [length]; lia. Qed.

Lemma content_buckets k : content (mk_dial 0 0 (repeat [] k) : dial label) = [].
Proof. unfold content. cbn [q_buckets]. induction k as [|k IH]; cbn; auto. Qed.
Lemma dinv_buckets k : dinv get_bucket k (mk_dial 0 0 (repeat [] k)).
Proof.
  unfold dinv. rewrite content_buckets. cbn [q_buckets q_size q_cur]. rewrite repeat_length. split; [reflexivity|]. split; [reflexivity|].
  split; [|intros; lia]. intros i x H. exfalso.
  assert (E : nth i (repeat (@nil label) k) [] = []).
  { clear. revert k; induction i as [|i IH]; intros [|k]; cbn; auto. }
  rewrite E in H. destruct H.
Qed.

Section Graph.
  Variable n : nat.
  Variable raw : nat -> list (nat * Z).
  Variable ttime : nat -> Z.
  Hypothesis OK : graph_ok n raw ttime.
  Notation fg := (fgraph raw).

  Lemma insert_target_in e l x : In x (insert_target e l) -> x = e \/ In x l.
  Proof.
    induction l as [|y l IH]; cbn [insert_target].
    - intros [->|[]]; auto.
    - destruct (fst e <? fst y)%nat; [intros [->|H]; auto|]. destruct (Nat.eqb (fst e) (fst y)); [auto|].
      intros [->|H]; [right; now left|]. destruct (IH H); auto. right. now right.
  Qed.
  Lemma insert_target_keep e l x : In x l -> In x (insert_target e l).
  Proof.
    induction l as [|y l IH]; cbn [insert_target]; [intros []|].
    destruct (fst e <? fst y)%nat; [intros; now right|]. destruct (Nat.eqb (fst e) (fst y)); [auto|].
    intros [->|H]; [now left|right; auto].
  Qed.
  Lemma insert_target_new e l : exists d, In (fst e, d) (insert_target e l).
  Proof.
    induction l as [|y l IH]; cbn [insert_target].
    - exists (snd e). left. now destruct e.
    - destruct (fst e <? fst y)%nat; [exists (snd e); left; now destruct e|].
      destruct (Nat.eqb_spec (fst e) (fst y)) as [E|]; [exists (snd y); left; rewrite E; now destruct y|].
      destruct IH as (d & H). exists d. now right.
  Qed.
  Definition tlt (a b : nat * Z) : Prop := (fst a < fst b)%nat.
  Lemma insert_target_sorted e l : StronglySorted tlt l -> StronglySorted tlt (insert_target e l).
  Proof.
    induction l as [|y l IH]; intros H; cbn [insert_target].
    - repeat constructor.
    - inversion H as [|? ? Hl Hy]; subst. destruct (Nat.ltb_spec (fst e) (fst y)) as [Hlt|Hge].
      + constructor; [exact H|]. constructor; [exact Hlt|]. eapply Forall_impl; [|exact Hy]. unfold tlt. intros; lia.
      + destruct (Nat.eqb_spec (fst e) (fst y)) as [E|Hne]; [exact H|]. constructor; [now apply IH|].
        apply Forall_forall. intros x Hx. apply insert_target_in in Hx as [->|Hx]; [unfold tlt; lia|].
        rewrite Forall_forall in Hy. now apply Hy.
  Qed.
  Lemma fg_fold es : forall acc,
    (StronglySorted tlt acc -> StronglySorted tlt (fold_left (fun l e => insert_target e l) es acc)) /\
    (forall x, In x (fold_left (fun l e => insert_target e l) es acc) -> In x es \/ In x acc) /\
    (forall x, In x acc -> In x (fold_left (fun l e => insert_target e l) es acc)) /\
    (forall e, In e es -> exists d, In (fst e, d) (fold_left (fun l e => insert_target e l) es acc)).
  Proof.
    induction es as [|e es IH]; intros acc; cbn [fold_left].
    - split; [auto|]. split; [auto|]. split; [auto|]. intros e [].
    - destruct (IH (insert_target e acc)) as (A & B & C & D). split; [intros H; now apply A, insert_target_sorted|].
      split; [|split].
      + intros x Hx. apply B in Hx as [Hx|Hx]; [left; now right|]. apply insert_target_in in Hx as [->|Hx]; [left; now left|now right].
      + intros x Hx. now apply C, insert_target_keep.
      + intros x [->|Hx]; [|now apply D]. destruct (insert_target_new x acc) as (d & H). exists d. now apply C.
  Qed.
  Lemma fg_sorted a : StronglySorted tlt (fg a).
  Proof. apply (fg_fold _ []). constructor. Qed.
  Lemma fg_iff a b d : In (b, d) (fg a) <-> a <> b /\ In (b, d) (raw a).
  Proof.
    destruct (fg_fold (filter (fun e => negb (Nat.eqb (fst e) a)) (raw a)) []) as (_ & B & _ & D). fold (fg a) in B, D.
    split.
    - intros H. apply B in H as [H|[]]. apply filter_In in H as [H1 H2]. cbn in H2. destruct (Nat.eqb_spec b a); [discriminate|]. split; auto.
    - intros [Hne H]. destruct (D (b, d)) as (d' & H').
      { apply filter_In. split; [exact H|]. cbn. destruct (Nat.eqb_spec b a); [congruence|reflexivity]. }
      cbn [fst] in H'. pose proof (B _ H') as [H2|[]]. apply filter_In in H2 as [H2 _].
      now rewrite (go_single _ _ _ OK a b d d' H H2).
  Qed.
  Lemma fg_sym a b d : In (b, d) (fg a) -> In (a, d) (fg b).
  Proof. rewrite !fg_iff. intros [H1 H2]. split; [congruence|]. now apply (go_sym _ _ _ OK). Qed.
  Lemma fg_range a b d : In (b, d) (fg a) -> (a < n)%nat /\ (b < n)%nat /\ 0 <= d <= 255.
  Proof. rewrite fg_iff. intros [_ H]. now apply (go_range _ _ _ OK). Qed.
  Lemma fg_ne a b d : In (b, d) (fg a) -> a <> b.
  Proof. rewrite fg_iff. tauto. Qed.
  Lemma fg_single a b d d' : In (b, d) (fg a) -> In (b, d') (fg a) -> d = d'.
  Proof. rewrite !fg_iff. intros [_ H] [_ H']. eapply go_single; eauto. Qed.

  Definition adj (a b : nat) : Prop := In b (map fst (fg a)).
  Lemma adj_iff a b : adj a b <-> exists d, In (b, d) (fg a).
  Proof.
    unfold adj. rewrite in_map_iff. split.
    - intros ([x d] & <- & H). now exists d.
    - intros (d & H). now exists (b, d).
  Qed.
  Lemma adj_sym a b : adj a b -> adj b a.
  Proof. rewrite !adj_iff. intros (d & H). exists d. now apply fg_sym. Qed.
  Inductive conn (a : nat) : nat -> Prop :=
  | conn_refl : conn a a
  | conn_step b c : conn a b -> adj b c -> conn a c.
  Lemma conn_trans a b c : conn a b -> conn b c -> conn a c.
  Proof. intros H1 H2. induction H2; auto. econstructor; eauto. Qed.
  Lemma conn_sym a b : conn a b -> conn b a.
  Proof.
    induction 1 as [|b c _ IH H]; [constructor|]. apply conn_trans with b; [|exact IH].
    apply conn_step with c; [constructor|now apply adj_sym].
  Qed.

  (** * Components *)
  Lemma is_comp_iff c j i : is_comp c j i = true <-> c j = Some i.
  Proof.
    unfold is_comp. destruct (c j) as [k|]; [|split; discriminate]. rewrite Nat.eqb_eq. split; [now intros ->|now intros [= ->]].
  Qed.
  Lemma is_comp_false c j i : is_comp c j i = false <-> c j <> Some i.
  Proof. rewrite <- is_comp_iff. destruct (is_comp c j i); split; congruence. Qed.
  Definition open_degree (c : comps) (i : nat) : nat :=
    list_sum (map (fun l => if is_comp c l i then 0%nat else length (fg l)) (seq 0 n)).
  Lemma list_sum_upd (f g : nat -> nat) j : forall l, NoDup l -> In j l -> (forall x, x <> j -> g x = f x) -> g j = 0%nat ->
    (list_sum (map g l) + f j = list_sum (map f l))%nat.
  Proof.
    induction l as [|x l IH]; intros Hn Hj Hg H0; [destruct Hj|]. inversion Hn as [|? ? Hx Hl]; subst. cbn [map list_sum fold_right].
    fold (list_sum (map g l)) (list_sum (map f l)).
    destruct (Nat.eq_dec x j) as [->|Hne].
    - rewrite H0. assert (E : map g l = map f l) by (apply map_ext_in; intros y Hy; apply Hg; congruence). rewrite E. lia.
    - destruct Hj as [->|Hj]; [congruence|]. rewrite (Hg x Hne). specialize (IH Hl Hj Hg H0). lia.
  Qed.
  Lemma open_degree_upd c i j : (j < n)%nat -> is_comp c j i = false ->
    (open_degree (upd c j (Some i)) i + length (fg j) = open_degree c i)%nat.
  Proof.
    intros Hj Hc. unfold open_degree.
    pose proof (list_sum_upd (fun l => if is_comp c l i then 0%nat else length (fg l))
                  (fun l => if is_comp (upd c j (Some i)) l i then 0%nat else length (fg l)) j (seq 0 n)) as H.
    cbv beta in H. rewrite Hc in H. apply H.
    - apply seq_NoDup.
    - apply in_seq. lia.
    - intros x Hx. unfold is_comp. now rewrite upd_other by congruence.
    - unfold is_comp. rewrite upd_same, Nat.eqb_refl. reflexivity.
  Qed.
  Record dfs_inv (i : nat) (c0 c : comps) (stack : list nat) : Prop := mk_dfs_inv {
    di_conn : forall j, In j stack -> conn i j;
    di_conn' : forall j, c j = Some i -> conn i j;
    di_range : forall j, In j stack -> (j < n)%nat;
    di_closed : forall j k, c j = Some i -> adj j k -> c k = Some i \/ In k stack;
    di_root : c i = Some i \/ In i stack;
    di_other : forall j, c j <> Some i -> c j = c0 j }.
  Lemma dfs_spec i c0 : forall fuel c stack, dfs_inv i c0 c stack -> (length stack + open_degree c i <= fuel)%nat ->
    let c' := dfs raw fuel i c stack in
    (forall j, c' j = Some i <-> conn i j) /\ (forall j, ~ conn i j -> c' j = c0 j).
  Proof.
    induction fuel as [|fuel IH]; intros c stack H Hf.
    - destruct stack as [|j stack]; [|cbn in Hf; lia]. cbn [dfs]. cbv zeta. destruct H as [_ A _ B C D].
      assert (X : forall j, c j = Some i <-> conn i j).
      { intros j. split; [apply A|]. induction 1 as [|b k _ IHb Hk]; [destruct C as [C|[]]; exact C|]. destruct (B _ _ IHb Hk) as [Y|[]]. exact Y. }
      split; [exact X|]. intros j Hj. apply D. rewrite X. exact Hj.
    - destruct stack as [|j stack].
      { cbn [dfs]. cbv zeta. destruct H as [_ A _ B C D].
        assert (X : forall j, c j = Some i <-> conn i j).
        { intros j. split; [apply A|]. induction 1 as [|b k _ IHb Hk]; [destruct C as [C|[]]; exact C|]. destruct (B _ _ IHb Hk) as [Y|[]]. exact Y. }
        split; [exact X|]. intros j Hj. apply D. rewrite X. exact Hj. }
      cbn [dfs]. cbv zeta. destruct (is_comp c j i) eqn:Ec.
      + apply IH.
        * destruct H as [A A' R B C D]. pose proof (proj1 (is_comp_iff c j i) Ec) as Ec'. constructor; auto.
          -- intros k Hk. apply A. now right.
          -- intros k Hk. apply R. now right.
          -- intros x k Hx Hk. destruct (B x k Hx Hk) as [Y|[->|Y]]; auto.
          -- destruct C as [C|[->|C]]; auto.
        * cbn [length] in Hf. lia.
      + set (c1 := upd c j (Some i)). set (news := filter (fun t => negb (is_comp c1 t i)) (map fst (fg j))).
        destruct H as [A A' R B C D]. pose proof (R j ltac:(now left)) as Hj.
        assert (C1 : forall k, c1 k = Some i <-> k = j \/ c k = Some i).
        { intros k. unfold c1. destruct (Nat.eq_dec j k) as [->|Hne]; [rewrite upd_same; tauto|]. rewrite upd_other by exact Hne. split; [auto|intros [->|]; congruence]. }
        assert (NEW : forall k, In k (rev news) <-> adj j k /\ c1 k <> Some i).
        { intros k. rewrite <- in_rev. unfold news. rewrite filter_In. rewrite negb_true_iff, is_comp_false. reflexivity. }
        apply IH.
        * constructor.
          -- intros k Hk. apply in_app_or in Hk as [Hk|Hk]; [|apply A; now right]. apply NEW in Hk as [Hk _].
             apply conn_step with j; [apply A; now left|exact Hk].
          -- intros k Hk. apply C1 in Hk as [->|Hk]; [apply A; now left|auto].
          -- intros k Hk. apply in_app_or in Hk as [Hk|Hk]; [|apply R; now right]. apply NEW in Hk as [Hk _].
             apply adj_iff in Hk as (d & Hk). eapply fg_range; eauto.
          -- intros x k Hx Hk. destruct (is_comp c1 k i) eqn:Ek; [left; now apply is_comp_iff|]. apply is_comp_false in Ek.
             right. apply in_or_app. apply C1 in Hx as [->|Hx]; [left; now apply NEW|].
             destruct (B x k Hx Hk) as [Y|[->|Y]]; auto; exfalso; apply Ek, C1; auto.
          -- destruct C as [C|[->|C]]; [left; apply C1; auto|left; apply C1; auto|right; apply in_or_app; auto].
          -- intros k Hk. rewrite C1 in Hk. unfold c1. rewrite upd_other by (intros ->; tauto). apply D. tauto.
        * rewrite app_length, rev_length. pose proof (open_degree_upd c i j Hj Ec) as O. fold c1 in O.
          assert (L : (length news <= length (fg j))%nat).
          { unfold news. etransitivity; [apply filter_length_le|]. now rewrite map_length. }
          cbn [length] in Hf. lia.
  Qed.
  Lemma open_degree_le c i : (open_degree c i <= list_sum (map (fun l => length (fg l)) (seq 0 n)))%nat.
  Proof.
    unfold open_degree. induction (seq 0 n) as [|x l IH]; cbn [map list_sum fold_right]; [lia|].
    fold (list_sum (map (fun l => if is_comp c l i then 0%nat else length (fg l)) l)) (list_sum (map (fun l => length (fg l)) l)).
    destruct (is_comp c x i); lia.
  Qed.
  Record comps_inv (i : nat) (c : comps) : Prop := mk_comps_inv {
    ci_root : forall l r, c l = Some r -> (r < i)%nat /\ fg r <> [] /\ forall m, c m = Some r <-> conn r m;
    ci_done : forall l, (l < i)%nat -> fg l <> [] -> c l <> None }.
  Lemma find_spec : comps_inv n (find_components n raw).
  Proof.
    unfold find_components.
    assert (G : forall m, (m <= n)%nat -> comps_inv m (fold_left (fun c i => match c i, fg i with None, _ :: _ => dfs raw (dfs_fuel n raw) i c [i] | _, _ => c end)
                                                        (seq 0 m) (fun _ => None))).
    { induction m as [|m IH]; intros Hm.
      - cbn. constructor; [discriminate|lia].
      - rewrite seq_S, fold_left_app. cbn [fold_left Nat.add]. specialize (IH ltac:(lia)).
        set (c := fold_left _ (seq 0 m) _) in *. destruct IH as [A B].
        assert (KEEP : c m <> None \/ fg m = [] -> comps_inv (S m) c).
        { intros K. constructor.
          - intros l r H. destruct (A l r H) as (H1 & H2 & H3). split; [lia|]. split; [exact H2|exact H3].
          - intros l Hl Hf. destruct (Nat.eq_dec l m) as [->|]; [tauto|]. apply B; [lia|exact Hf]. }
        destruct (c m) as [r|] eqn:Ec; [apply KEEP; left; discriminate|].
        destruct (fg m) as [|e es] eqn:Ef; [apply KEEP; auto|].
        assert (DI : dfs_inv m c c [m]).
        { constructor.
          - intros j [->|[]]. constructor.
          - intros j H. destruct (A j m H) as (H1 & _). lia.
          - intros j [->|[]]. lia.
          - intros j k H. destruct (A j m H) as (H1 & _). lia.
          - right. now left.
          - auto. }
        destruct (dfs_spec m c (dfs_fuel n raw) c [m] DI) as [D1 D2].
        { unfold dfs_fuel. pose proof (open_degree_le c m). cbn [length]. lia. }
        set (c' := dfs raw (dfs_fuel n raw) m c [m]) in *.
        (* locations of other components are not touched *)
        assert (O : forall l r, c l = Some r -> ~ conn m l).
        { intros l r H Hc. destruct (A l r H) as (_ & _ & H3). apply conn_sym in Hc.
          assert (c m = Some r) by (apply H3; apply conn_trans with l; [now apply H3|exact Hc]). congruence. }
        constructor.
        + intros l r H. destruct (Nat.eq_dec r m) as [->|Hr].
          * split; [lia|]. split; [rewrite Ef; discriminate|exact D1].
          * assert (Hn : ~ conn m l) by (intros X; apply D1 in X; congruence).
            rewrite D2 in H by exact Hn. destruct (A l r H) as (H1 & H2 & H3). split; [lia|]. split; [exact H2|].
            intros k. rewrite <- H3. split.
            -- intros Hk. rewrite <- D2; [exact Hk|]. intros X. apply D1 in X. congruence.
            -- intros Hk. rewrite D2; [exact Hk|]. eapply O; eauto.
        + intros l Hl Hf. destruct (Nat.eq_dec l m) as [->|].
          * assert (E : c' m = Some m) by (apply D1; constructor). congruence.
          * assert (c l <> None) by (apply B; [lia|exact Hf]). destruct (c l) as [r|] eqn:El; [|congruence].
            rewrite D2 by (eapply O; eauto). congruence. }
    apply G. lia.
  Qed.

  (** * Members of a component *)
  Lemma seq_sorted a k : StronglySorted lt (seq a k).
  Proof.
    revert a; induction k as [|k IH]; intros a; cbn [seq]; constructor; [apply IH|]. apply Forall_forall. intros x Hx. apply in_seq in Hx. lia.
  Qed.
  Lemma filter_sorted f l : StronglySorted lt l -> StronglySorted lt (filter f l).
  Proof.
    induction 1 as [|x l Hl IH Hx]; cbn [filter]; [constructor|]. destruct (f x); [|exact IH]. constructor; [exact IH|].
    apply Forall_forall. intros y Hy. apply filter_In in Hy as [Hy _]. rewrite Forall_forall in Hx. now apply Hx.
  Qed.
  Lemma sorted_nth m : StronglySorted lt m -> forall p q x y, nth_error m p = Some x -> nth_error m q = Some y -> (p < q)%nat -> (x < y)%nat.
  Proof.
    induction 1 as [|z m Hm IH Hz]; intros p q x y Hp Hq Hpq; [now destruct p|].
    destruct q as [|q]; [lia|]. cbn in Hq. destruct p as [|p]; cbn in Hp.
    - injection Hp as <-. rewrite Forall_forall in Hz. apply Hz. eapply nth_error_In; eauto.
    - eapply IH; eauto. lia.
  Qed.
  Lemma sorted_pos m p q x y : StronglySorted lt m -> nth_error m p = Some x -> nth_error m q = Some y -> (x < y)%nat -> (p < q)%nat.
  Proof.
    intros H Hp Hq Hxy. destruct (Nat.lt_trichotomy p q) as [L|[->|G]]; auto.
    - rewrite Hp in Hq. injection Hq as ->. lia.
    - pose proof (sorted_nth m H q p y x Hq Hp G). lia.
  Qed.
  Lemma sorted_inj m p q x : StronglySorted lt m -> nth_error m p = Some x -> nth_error m q = Some x -> p = q.
  Proof.
    intros H Hp Hq. destruct (Nat.lt_trichotomy p q) as [L|[->|G]]; auto.
    - pose proof (sorted_nth m H p q x x Hp Hq L). lia.
    - pose proof (sorted_nth m H q p x x Hq Hp G). lia.
  Qed.
  (** What the components look like. *)
  Record component_of (r : nat) (m : list nat) : Prop := mk_component {
    co_range : (r < n)%nat;
    co_sorted : StronglySorted lt m;
    co_in : forall l, In l m <-> conn r l;
    co_size : (2 <= length m)%nat }.
  Lemma conn_range r l : (r < n)%nat -> conn r l -> (l < n)%nat.
  Proof. intros Hr H. induction H as [|b c _ IH Ha]; auto. apply adj_iff in Ha as (d & Ha). eapply fg_range; eauto. Qed.
  Lemma members_in c i l : In l (members n c i) <-> (l < n)%nat /\ c l = Some i.
  Proof. unfold members. rewrite filter_In, in_seq, is_comp_iff. split; intros [A B]; split; auto; lia. Qed.
  Lemma two_elements {A} (l : list A) a b : In a l -> In b l -> a <> b -> (2 <= length l)%nat.
  Proof.
    destruct l as [|x [|y l]]; cbn; try lia; try tauto. intros [->|[]] [->|[]]. congruence.
  Qed.
  Lemma component_root c r : comps_inv n c -> (exists l, c l = Some r) -> component_of r (members n c r).
  Proof.
    intros [A _] (l & H). destruct (A l r H) as (Hr & Hf & Hc).
    assert (IN : forall k, In k (members n c r) <-> conn r k).
    { intros k. rewrite members_in, Hc. split; [tauto|]. intros X. split; [eapply conn_range; eauto|exact X]. }
    constructor; auto.
    - unfold members. apply filter_sorted, seq_sorted.
    - destruct (fg r) as [|[t d] es] eqn:E; [congruence|].
      assert (Hrt : In (t, d) (fg r)) by (rewrite E; now left).
      apply two_elements with r t; [apply IN; constructor| |eapply fg_ne; eauto].
      apply IN. apply conn_step with r; [constructor|]. apply adj_iff. eauto.
  Qed.
  Lemma components_spec m : In m (components n (find_components n raw)) -> exists r, component_of r m.
  Proof.
    unfold components. rewrite filter_In, in_map_iff. intros [(r & <- & Hr) Hl].
    exists r. apply component_root; [apply find_spec|].
    destruct (members n (find_components n raw) r) as [|l ls] eqn:E; [discriminate|].
    exists l. apply (members_in _ r). rewrite E. now left.
  Qed.
  (** Every location with a footpath is in exactly one listed component. *)
  Lemma components_complete a : fg a <> [] -> exists m, In m (components n (find_components n raw)) /\ In a m.
  Proof.
    intros Ha. assert (Han : (a < n)%nat).
    { destruct (fg a) as [|[t d] es] eqn:E; [congruence|]. apply (fg_range a t d). rewrite E. now left. }
    pose proof find_spec as [A B]. specialize (B a Han Ha). destruct (find_components n raw a) as [r|] eqn:Er; [|congruence].
    destruct (A a r Er) as (Hr & Hf & Hc).
    assert (Hin : In a (members n (find_components n raw) r)) by (apply members_in; auto).
    exists (members n (find_components n raw) r). split; [|exact Hin].
    unfold components. apply filter_In. split; [apply in_map, in_seq; lia|].
    destruct (members n (find_components n raw) r); [destruct Hin|reflexivity].
  Qed.

  (** * The graph of a component *)
  Lemma advance_spec m t p : StronglySorted lt m -> nth_error m p = Some t -> forall fuel pos, (pos <= p)%nat -> (p - pos < fuel)%nat ->
    advance fuel m pos t = p.
  Proof.
    intros Hs Hp. induction fuel as [|fuel IH]; intros pos Hle Hf; [lia|]. cbn [advance].
    destruct (nth_error m pos) as [x|] eqn:Ex.
    - destruct (Nat.eqb_spec x t) as [->|Hne]; [eapply sorted_inj; eauto|].
      destruct (Nat.eq_dec pos p) as [->|]; [congruence|]. apply IH; lia.
    - apply nth_error_None in Ex. assert (p < length m)%nat by (apply nth_error_Some; congruence). lia.
  Qed.
  Definition weight (a b : nat) (d : Z) : Z := max3 (ttime a) (ttime b) d.
  Lemma node_edges_spec m i from_l : StronglySorted lt m -> forall es pos,
    StronglySorted tlt es -> (forall e, In e es -> In (fst e) m /\ 0 <= snd e <= 255) ->
    (forall e p, In e es -> nth_error m p = Some (fst e) -> (pos <= p)%nat) ->
    forall x, In x (node_edges ttime m i from_l pos es) <->
      exists j e, In e es /\ nth_error m j = Some (fst e) /\ x = (i, j, weight from_l (fst e) (snd e)).
  Proof.
    intros Hm. induction es as [|e es IH]; intros pos Hs He Hp x; cbn [node_edges].
    - split; [intros []|intros (j & e & [] & _)].
    - inversion Hs as [|? ? Hs' He']; subst.
      destruct (In_nth_error m (fst e) (proj1 (He e ltac:(now left)))) as (p & Ep).
      assert (L : (p < length m)%nat) by (apply nth_error_Some; congruence).
      rewrite (advance_spec m (fst e) p Hm Ep (length m) pos) by (first [eapply Hp; [now left|exact Ep]|lia]).
      rewrite to_u8_id by (apply (He e); now left). cbn [In]. rewrite IH; auto.
      + split.
        * intros [<-|(j & f & A & B & C)]; [exists p, e; split; [now left|auto]|exists j, f; split; [now right|auto]].
        * intros (j & f & [->|A] & B & C); [left|right; eauto]. rewrite (sorted_inj m p j (fst f) Hm Ep B). now rewrite C.
      + intros f Hf. apply He. now right.
      + intros f q Hf Hq. rewrite Forall_forall in He'. specialize (He' f Hf). unfold tlt in He'.
        pose proof (sorted_pos m p q _ _ Hm Ep Hq He'). lia.
  Qed.
  Lemma in_combine_seq {A} (l : list A) i x a : In (i, x) (combine (seq a (length l)) l) <-> (a <= i)%nat /\ nth_error l (i - a) = Some x.
  Proof.
    revert a; induction l as [|y l IH]; intros a; cbn [length seq combine In].
    - split; [intros []|]. intros [_ H]. now destruct (i - a)%nat.
    - rewrite IH. split.
      + intros [[= -> ->]|[H1 H2]]; [rewrite Nat.sub_diag; auto|]. split; [lia|]. replace (i - a)%nat with (S (i - S a)) by lia. exact H2.
      + intros [H1 H2]. destruct (Nat.eq_dec i a) as [->|]; [rewrite Nat.sub_diag in H2; cbn in H2; left; congruence|].
        right. split; [lia|]. replace (i - a)%nat with (S (i - S a)) in H2 by lia. exact H2.
  Qed.
  Section Component.
    Variable r : nat.
    Variable m : list nat.
    Hypothesis CO : component_of r m.
    Lemma closed_in l k d : In l m -> In (k, d) (fg l) -> In k m.
    Proof. intros Hl Hk. apply (co_in _ _ CO). apply (co_in _ _ CO) in Hl. apply conn_step with l; [exact Hl|]. apply adj_iff. eauto. Qed.
    Lemma comp_edges_spec i j w : In (i, j, w) (comp_edges raw ttime m) <->
      exists a b d, nth_error m i = Some a /\ nth_error m j = Some b /\ In (b, d) (fg a) /\ w = weight a b d.
    Proof.
      unfold comp_edges. rewrite in_flat_map.
      assert (N : forall i' a, In a m -> forall x, In x (node_edges ttime m i' a 0 (fg a)) <->
                exists j e, In e (fg a) /\ nth_error m j = Some (fst e) /\ x = (i', j, weight a (fst e) (snd e))).
      { intros i' a Ha. apply node_edges_spec; [apply CO|apply fg_sorted| |intros; lia].
        intros [b d] He. split; [eapply closed_in; eauto|]. eapply fg_range; eauto. }
      split.
      - intros ([i' a] & H1 & H2). cbn [fst snd] in H2. apply in_combine_seq in H1 as [_ H1]. rewrite Nat.sub_0_r in H1.
        apply N in H2; [|eapply nth_error_In; eauto]. destruct H2 as (j' & [b d] & A & B & C). injection C as -> -> ->.
        exists a, b, d. auto.
      - intros (a & b & d & A & B & C & ->). exists (i, a). split.
        + apply in_combine_seq. rewrite Nat.sub_0_r. split; [lia|exact A].
        + cbn [fst snd]. apply N; [eapply nth_error_In; eauto|]. exists j, (b, d). auto.
    Qed.
    Lemma tmp_graph_in es k j w : In (j, w) (tmp_graph es k) <-> In (k, j, w) es \/ In (j, k, w) es.
    Proof.
      unfold tmp_graph. rewrite in_flat_map. split.
      - intros ([[a b] d] & H1 & H2). apply in_app_or in H2 as [H2|H2].
        + destruct (Nat.eqb_spec a k) as [->|]; [|destruct H2]. destruct H2 as [[= <- <-]|[]]. auto.
        + destruct (Nat.eqb_spec b k) as [->|]; [|destruct H2]. destruct H2 as [[= <- <-]|[]]. auto.
      - intros [H|H]; [exists (k, j, w)|exists (j, k, w)]; (split; [exact H|]); rewrite Nat.eqb_refl; apply in_or_app; [left|right]; now left.
    Qed.
    Lemma weight_sym a b d : weight a b d = weight b a d.
    Proof. unfold weight, max3. lia. Qed.
    Definition cgraph : nat -> list edge := tmp_graph (comp_edges raw ttime m).
    Lemma cgraph_in k j w : In (j, w) (cgraph k) <->
      exists a b d, nth_error m k = Some a /\ nth_error m j = Some b /\ In (b, d) (fg a) /\ w = weight a b d.
    Proof.
      unfold cgraph. rewrite tmp_graph_in, !comp_edges_spec. split; [|now left]. intros [H|(a & b & d & A & B & C & ->)]; [exact H|].
      exists b, a, d. split; [exact B|]. split; [exact A|]. split; [now apply fg_sym|apply weight_sym].
    Qed.
    Lemma build_graph : (2 < length m)%nat -> build_component_graph raw ttime m = Some cgraph.
    Proof.
      intros Hl. unfold build_component_graph. destruct (Nat.leb_spec (length m) 2); [lia|].
      assert (E : forallb (fun e => (snd (fst e) <? length m)%nat) (comp_edges raw ttime m) = true).
      { apply forallb_forall. intros [[i j] w] H1. cbn [fst snd]. apply comp_edges_spec in H1 as (a & b & d & A & B & _).
        apply Nat.ltb_lt. apply nth_error_Some. congruence. }
      rewrite E. reflexivity.
    Qed.
    Lemma weight_range a b d : 0 <= d <= 255 -> 0 <= weight a b d <= 255.
    Proof. intros H. pose proof (go_ttime _ _ _ OK a). pose proof (go_ttime _ _ _ OK b). unfold weight, max3. lia. Qed.
    Lemma cgraph_closed u v w : In (v, w) (cgraph u) -> (v < length m)%nat /\ 0 <= w.
    Proof.
      intros H. apply cgraph_in in H as (a & b & d & A & B & C & ->). split; [apply nth_error_Some; congruence|].
      apply weight_range. eapply fg_range; eauto.
    Qed.
    (** Walks in the component and in the whole graph. *)
    Definition start_at (k : nat) (v : nat) (d : Z) : Prop := upd (fun _ => 65535) k 0 v = d /\ d < 65535.
    Lemma start_at_iff k v d : start_at k v d <-> v = k /\ d = 0.
    Proof.
      unfold start_at. destruct (Nat.eq_dec k v) as [->|Hne].
      - rewrite upd_same. split; [intros [H _]; auto|intros [_ ->]; split; [reflexivity|lia]].
      - rewrite upd_other by exact Hne. split; [intros [<- H]; lia|intros [-> _]; congruence].
    Qed.
    Lemma local_global k a v d : nth_error m k = Some a -> walk_cost cgraph (start_at k) v d ->
      exists b, nth_error m v = Some b /\ walk raw ttime a b d.
    Proof.
      intros Hk. induction 1 as [v d H|u v d w _ (b & IH1 & IH2) He].
      - apply start_at_iff in H as [-> ->]. exists a. split; [exact Hk|constructor].
      - apply cgraph_in in He as (x & y & e & A & B & C & ->). rewrite IH1 in A. injection A as <-.
        exists y. split; [exact B|]. apply (walk_on raw ttime a b); [exact IH2|]. apply fg_iff in C. tauto.
    Qed.
    Lemma walk_nonneg a b d : walk raw ttime a b d -> 0 <= d.
    Proof.
      induction 1 as [|b c d w _ IH H]; [lia|]. pose proof (go_range _ _ _ OK _ _ _ H) as (_ & _ & R).
      pose proof (weight_range b c w R) as W. unfold weight in W. lia.
    Qed.
    Lemma global_local k a b d : nth_error m k = Some a -> walk raw ttime a b d ->
      exists v d', nth_error m v = Some b /\ walk_cost cgraph (start_at k) v d' /\ d' <= d.
    Proof.
      intros Hk. induction 1 as [|b c d w Hw (v & d' & A & B & C) H].
      - exists k, 0. split; [exact Hk|]. split; [|lia]. constructor. now apply start_at_iff.
      - pose proof (go_range _ _ _ OK _ _ _ H) as (_ & _ & R).
        pose proof (weight_range b c w R) as W. fold (weight b c w).
        destruct (Nat.eq_dec b c) as [<-|Hne]; [exists v, d'; split; [exact A|]; split; [exact B|lia]|].
        assert (Hf : In (c, w) (fg b)) by (apply fg_iff; auto).
        destruct (In_nth_error m c (closed_in b c w (nth_error_In _ _ A) Hf)) as (v' & Hv').
        exists v', (d' + weight b c w). split; [exact Hv'|]. split; [|lia]. apply walk_edge with v; [exact B|].
        apply cgraph_in. exists b, c, w. auto.
    Qed.
    Variable max_len : Z.
    Hypothesis max_ok : 1 <= max_len <= 65535.
    Lemma dists_spec k a : nth_error m k = Some a -> exists fuel0, forall fuel, (fuel0 <= fuel)%nat ->
      exists D, node_dists max_len fuel cgraph k = Some D /\
        forall v b, nth_error m v = Some b -> (forall d, D v = d /\ d <> 65535 <-> shortest raw ttime a b d /\ d < max_len) /\
          (forall d, walk raw ttime a b d -> d < max_len -> D v <> 65535).
    Proof.
      intros Hk. assert (KL : (k < length m)%nat) by (apply nth_error_Some; congruence).
      set (nb := Z.to_nat max_len). set (dists0 := upd (fun _ : nat => 65535) k 0).
      assert (d0 : forall v, 0 <= dists0 v <= 65535).
      { intros v. unfold dists0. destruct (Nat.eq_dec k v) as [->|]; [rewrite upd_same|rewrite upd_other by auto]; lia. }
      set (pq0 := mk_dial 0 0 (repeat [] nb) : dial label).
      assert (NBZ : Z.of_nat nb = max_len) by (unfold nb; lia).
      destruct (push_spec get_bucket nb pq0 (k, 0) (dinv_buckets nb)) as [P1 P2].
      destruct P1 as (pq & EP); [unfold nb; change (get_bucket (k, 0)) with 0%nat; lia|].
      destruct (P2 pq EP) as (_ & DI & HP). unfold pq0 in HP; rewrite content_buckets in HP; fold pq0 in HP.
      assert (CQ : forall x, In x (content pq) <-> x = (k, 0)).
      { intros x. split; [intros H; apply (Permutation_in _ HP) in H; destruct H as [H|[]]; auto|].
        intros ->. apply (Permutation_in _ (Permutation_sym HP)). now left. }
      assert (D0K : dists0 k = 0) by apply upd_same.
      assert (D0O : forall v, dists0 v < 65535 -> v = k).
      { intros v H. destruct (Nat.eq_dec k v) as [|Hne]; [congruence|]. unfold dists0 in H. rewrite upd_other in H by exact Hne. lia. }
      assert (HI : inv cgraph (length m) nb dists0 dists0 pq).
      { constructor; auto.
        - intros l d H. apply CQ in H. injection H as -> ->. split; [exact KL|]. split; [lia|]. rewrite D0K. lia.
        - intros v. split; [apply d0|lia].
        - intros v H. constructor. auto.
        - intros v H. rewrite (D0O v H), D0K. lia. }
      exists (measure (length m) dists0 pq). intros fuel Hf.
      destruct (loop_spec cgraph (length m) max_len nb cgraph_closed ltac:(lia) dists0 d0 fuel dists0 pq HI) as (D & EL & GD); [|exact Hf|].
      { intros v H. left. apply CQ. rewrite (D0O v H), D0K. reflexivity. }
      exists D. split.
      { unfold node_dists. change (repeat [] (Z.to_nat max_len)) with (repeat (@nil label) nb). fold pq0. rewrite EP. fold dists0. rewrite EL. reflexivity. }
      pose proof GD as (G1 & G2 & _ & G4).
      assert (OPT : forall v d, walk_cost cgraph (start_at k) v d -> d < max_len -> 0 <= d /\ D v <= d).
      { intros v d Hw Hd. apply (good_optimal cgraph (length m) max_len nb cgraph_closed ltac:(lia) dists0 (start_at k) D); auto.
        - intros v' d' H. apply start_at_iff in H as [-> ->]. rewrite D0K. lia.
        - unfold below. rewrite NBZ. lia. }
      intros v b Hv. split; [intros d; split|].
      3: { intros d Hw Hmax. destruct (global_local k a b d Hk Hw) as (v' & d2 & A & B & C).
           rewrite (sorted_inj m v' v b (co_sorted _ _ CO) A Hv) in B. destruct (OPT v d2 B ltac:(lia)). lia. }
      - intros [E Hd]. assert (Hlt : D v < 65535) by (specialize (G1 v); specialize (d0 v); lia).
        assert (Hmax : d < max_len) by (specialize (G4 v Hlt); lia).
        specialize (G2 v Hlt). destruct (local_global k a v (D v) Hk G2) as (b' & Hb & Hw). rewrite Hv in Hb. injection Hb as <-.
        split; [|exact Hmax]. split; [now rewrite <- E|]. intros d' Hd'.
        destruct (Z.lt_ge_cases d' d) as [Hl|]; [|lia].
        destruct (global_local k a b d' Hk Hd') as (v' & d2 & A & B & C).
        rewrite (sorted_inj m v' v b (co_sorted _ _ CO) A Hv) in B. destruct (OPT v d2 B ltac:(lia)). lia.
      - intros [[Hw Hs] Hmax]. destruct (global_local k a b d Hk Hw) as (v' & d2 & A & B & C).
        rewrite (sorted_inj m v' v b (co_sorted _ _ CO) A Hv) in B. destruct (OPT v d2 B ltac:(lia)) as [O1 O2].
        assert (Hlt : D v < 65535) by lia. specialize (G2 v Hlt).
        destruct (local_global k a v (D v) Hk G2) as (b' & Hb & Hw'). rewrite Hv in Hb. injection Hb as <-.
        specialize (Hs _ Hw'). lia.
    Qed.
  End Component.
End Graph.
