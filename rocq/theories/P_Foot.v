(** C39: the footpaths of the timetable are the transitive closure of the given ones. *)
From Coq Require Import List ZArith Bool Arith Lia Permutation Sorted.
From Verif Require Import Base Time_Model Raptor_Model Query_Model Dial_Model Dijkstra_Model Dijkstra_Proofs Foot_Model Foot_Proofs.
Import ListNotations.
Local Open Scope Z_scope.

Section Final.
  Variable n : nat.
  Variable raw : nat -> list (nat * Z).
  Variable ttime : nat -> Z.
  Variable max_len : Z.
  Variable beeline : option (nat -> nat -> option Z).
  Hypothesis OK : graph_ok n raw ttime.
  Hypothesis max_ok : 1 <= max_len <= 256.
  Notation fg := (fgraph raw).
  Notation C := (components n (find_components n raw)).

  (** ** All searches *)
  Lemma all_fuel {A} (l : list A) (P : nat -> A -> Prop) :
    (forall x, In x l -> exists f0, forall f, (f0 <= f)%nat -> P f x) -> exists f0, forall f, (f0 <= f)%nat -> forall x, In x l -> P f x.
  Proof.
    induction l as [|x l IH]; intros H.
    - exists 0%nat. intros f _ x [].
    - destruct (H x ltac:(now left)) as (f1 & H1). destruct IH as (f2 & H2); [intros y Hy; apply H; now right|].
      exists (Nat.max f1 f2). intros f Hf y [<-|Hy]; [apply H1; lia|apply H2; [lia|exact Hy]].
  Qed.
  Lemma opt_concat_spec {A B} (f : A -> option (list B)) (Q : A -> B -> Prop) l :
    (forall x, In x l -> exists ws, f x = Some ws /\ forall w, In w ws <-> Q x w) ->
    exists ws, opt_concat (map f l) = Some ws /\ forall w, In w ws <-> exists x, In x l /\ Q x w.
  Proof.
    induction l as [|x l IH]; intros H.
    - exists []. split; [reflexivity|]. intros w. split; [intros []|intros (x & [] & _)].
    - destruct (H x ltac:(now left)) as (a & Ea & Ha). destruct IH as (b & Eb & Hb); [intros y Hy; apply H; now right|].
      exists (a ++ b). cbn [map opt_concat fold_right]. rewrite Ea. fold (opt_concat (map f l)). rewrite Eb. split; [reflexivity|].
      intros w. rewrite in_app_iff, Ha, Hb. split.
      + intros [X|(y & Y1 & Y2)]; [exists x; split; [now left|exact X]|exists y; split; [now right|exact Y2]].
      + intros (y & [<-|Y1] & Y2); [now left|right; eauto].
  Qed.
  Lemma write_in a b d w : In w (write beeline a b d) <-> exists x, adjusted beeline a b d = Some x /\ w = (a, b, x).
  Proof.
    unfold write. destruct (adjusted beeline a b d) as [x|].
    - split; [intros [<-|[]]; eauto|intros (y & [= <-] & ->); now left].
    - split; [intros []|intros (y & E & _); discriminate].
  Qed.
  Lemma walk_ge_ends a b d : a <> b -> walk raw ttime a b d -> ttime a <= d /\ ttime b <= d.
  Proof.
    intros Hne H. assert (G : a = b \/ ttime a <= d /\ ttime b <= d); [|tauto]. clear Hne.
    induction H as [|b c d w Hw IH He]; [now left|]. right.
    pose proof (walk_nonneg n raw ttime OK _ _ _ Hw). pose proof (go_range _ _ _ OK _ _ _ He) as (_ & _ & R).
    pose proof (go_ttime _ _ _ OK a). pose proof (go_ttime _ _ _ OK b). pose proof (go_ttime _ _ _ OK c). unfold max3.
    destruct IH as [<-|IH]; lia.
  Qed.
  (** The footpaths written for a large component. *)
  Definition written (m : list nat) (w : nat * nat * Z) : Prop :=
    exists a b s x, w = (a, b, x) /\ In a m /\ In b m /\ a <> b /\ shortest raw ttime a b s /\ s < max_len /\ adjusted beeline a b s = Some x.
  Lemma node_writes_spec r m k a D : component_of n raw r m -> nth_error m k = Some a ->
    (forall v b, nth_error m v = Some b -> forall d, D v = d /\ d <> 65535 <-> shortest raw ttime a b d /\ d < max_len) ->
    forall w, In w (node_writes ttime beeline m k D) <->
      exists b s x, w = (a, b, x) /\ In b m /\ a <> b /\ shortest raw ttime a b s /\ s < max_len /\ adjusted beeline a b s = Some x.
  Proof.
    intros CO Hk HD w. unfold node_writes. rewrite in_flat_map.
    assert (NK : nth k m 0%nat = a) by (now apply nth_error_nth).
    assert (EQ : forall b s, a <> b -> shortest raw ttime a b s -> s < max_len ->
              max3 (to_u8 (Z.min s fp_max_duration)) (ttime a) (ttime b) = s).
    { intros b s Hne [Hw _] Hs. pose proof (walk_nonneg n raw ttime OK _ _ _ Hw). destruct (walk_ge_ends a b s Hne Hw).
      change fp_max_duration with 511. rewrite Z.min_l by lia. rewrite to_u8_id by lia. unfold max3. lia. }
    split.
    - intros ([v b] & H1 & H2). cbn [fst snd] in H2. apply in_combine_seq in H1 as [_ H1]. rewrite Nat.sub_0_r in H1.
      destruct ((D v =? 65535) || Nat.eqb v k) eqn:Eb; [destruct H2|]. apply orb_false_iff in Eb as [E1 E2].
      apply Z.eqb_neq in E1. apply Nat.eqb_neq in E2. rewrite NK in H2.
      destruct (proj1 (HD v b H1 (D v)) (conj eq_refl E1)) as [S1 S2].
      assert (Hne : a <> b) by (intros <-; apply E2; eapply sorted_inj; eauto; apply CO).
      rewrite EQ in H2 by auto. apply write_in in H2 as (x & X1 & X2).
      exists b, (D v), x. split; [exact X2|]. split; [eapply nth_error_In; eauto|]. auto.
    - intros (b & s & x & -> & Hb & Hne & S1 & S2 & X). destruct (In_nth_error m b Hb) as (v & Hv).
      destruct (proj2 (HD v b Hv s) (conj S1 S2)) as [E1 E2].
      exists (v, b). split; [apply in_combine_seq; rewrite Nat.sub_0_r; split; [lia|exact Hv]|]. cbn [fst snd]. rewrite E1, NK.
      assert (Ek : Nat.eqb v k = false) by (apply Nat.eqb_neq; intros ->; congruence).
      rewrite Ek. destruct (Z.eqb_spec s 65535); [congruence|]. cbn [orb]. rewrite EQ by auto. apply write_in. eauto.
  Qed.
  Lemma process_component_spec r m : component_of n raw r m -> (2 < length m)%nat -> exists f0, forall f, (f0 <= f)%nat ->
    exists ws, process_component raw ttime max_len beeline f m = Some ws /\ forall w, In w ws <-> written m w.
  Proof.
    intros CO Hl.
    destruct (all_fuel (seq 0 (length m)) (fun f k => exists ws, option_map (node_writes ttime beeline m k) (node_dists max_len f (cgraph raw ttime m) k) = Some ws /\
               forall w, In w ws <-> exists a, nth_error m k = Some a /\ exists b s x, w = (a, b, x) /\ In b m /\ a <> b /\ shortest raw ttime a b s /\ s < max_len /\ adjusted beeline a b s = Some x)) as (f0 & H).
    { intros k Hk. apply in_seq in Hk. destruct (nth_error m k) as [a|] eqn:Ea; [|apply nth_error_None in Ea; lia].
      destruct (dists_spec n raw ttime OK r m CO max_len ltac:(lia) k a Ea) as (f0 & H). exists f0. intros f Hf.
      destruct (H f Hf) as (D & ED & HD'). pose proof (fun v b E => proj1 (HD' v b E)) as HD. rewrite ED. cbn [option_map]. eexists. split; [reflexivity|]. intros w.
      rewrite (node_writes_spec r m k a D CO Ea HD w). split; [intros X; exists a; auto|intros (a' & [= <-] & X); exact X]. }
    exists f0. intros f Hf. unfold process_component. rewrite (build_graph n raw ttime OK r m CO Hl).
    destruct (opt_concat_spec (fun k => option_map (node_writes ttime beeline m k) (node_dists max_len f (cgraph raw ttime m) k)) _ (seq 0 (length m)) (H f Hf)) as (ws & E & W).
    exists ws. split; [exact E|]. intros w. rewrite W. unfold written. split.
    - intros (k & Hk & a & Ea & b & s & x & -> & Y). exists a, b, s, x. split; [reflexivity|]. split; [eapply nth_error_In; eauto|exact Y].
    - intros (a & b & s & x & -> & Ha & Y). destruct (In_nth_error m a Ha) as (k & Ek). exists k. split.
      + apply in_seq. assert (k < length m)%nat by (apply nth_error_Some; congruence). lia.
      + exists a. split; [exact Ek|]. exists b, s, x. auto.
  Qed.

  (** ** Two-node components *)
  Lemma pair_shortest a b d : isolated_pair raw a b -> In (b, d) (raw a) -> shortest raw ttime a b (max3 (ttime a) (ttime b) d).
  Proof.
    intros (Hne & _ & HA & HB) Hin. split.
    - change (max3 (ttime a) (ttime b) d) with (0 + max3 (ttime a) (ttime b) d). apply (walk_on raw ttime a a); [constructor|exact Hin].
    - intros d' Hw. assert (G : forall c e, walk raw ttime a c e -> (c = a /\ 0 <= e) \/ (c = b /\ max3 (ttime a) (ttime b) d <= e)).
      { induction 1 as [|x c e w Hw' IH He]; [left; split; [reflexivity|lia]|].
        pose proof (go_range _ _ _ OK _ _ _ He) as (_ & _ & R).
        pose proof (go_ttime _ _ _ OK a). pose proof (go_ttime _ _ _ OK b). pose proof (go_range _ _ _ OK _ _ _ Hin) as (_ & _ & R').
        destruct IH as [[-> I]|[-> I]].
        - destruct (HA c w He) as [-> | ->]; [left; split; [reflexivity|unfold max3; lia]|].
          right. split; [reflexivity|]. rewrite (go_single _ _ _ OK a b d w Hin He). unfold max3 in *. lia.
        - destruct (HB c w He) as [-> | ->]; [left|right]; (split; [reflexivity|unfold max3 in *; lia]). }
      destruct (G b d' Hw) as [[E _]|[_ E]]; [congruence|exact E].
  Qed.
  Lemma pair_sym a b : isolated_pair raw a b -> isolated_pair raw b a.
  Proof.
    intros (H1 & (w & H2) & H3 & H4). split; [congruence|]. split; [exists w; now apply (go_sym _ _ _ OK)|].
    split; intros c v Hc; [apply H4 in Hc|apply H3 in Hc]; tauto.
  Qed.
  Lemma component_pair r a b : component_of n raw r [a; b] -> isolated_pair raw a b.
  Proof.
    intros CO. assert (Hne : a <> b).
    { pose proof (co_sorted _ _ _ _ CO) as S. inversion S as [|? ? _ F]; subst. inversion F; subst. lia. }
    assert (CL : forall x c w, In x [a; b] -> In (c, w) (raw x) -> c = a \/ c = b).
    { intros x c w Hx Hc. destruct (Nat.eq_dec x c) as [<-|Hxc]; [destruct Hx as [-> | [-> | []]]; auto|].
      assert (In c [a; b]) as [-> | [-> | []]]; auto. eapply (closed_in n raw r [a; b] CO x c w); eauto. apply (fg_iff n raw ttime OK). auto. }
    split; [exact Hne|]. split; [|split; intros c w; apply CL; cbn; auto].
    (* a path from a to b starts with a footpath *)
    assert (Hab : conn raw a b).
    { apply conn_trans with r; [apply (conn_sym n raw ttime OK)|]; apply (co_in _ _ _ _ CO); cbn; auto. }
    assert (X : forall x, conn raw a x -> x = a \/ exists w, In (b, w) (raw a)).
    { induction 1 as [|x y Hx IH Hy]; [now left|]. destruct IH as [->|IH]; [|now right].
      apply adj_iff in Hy as (w & Hy). apply (fg_iff n raw ttime OK) in Hy as [Hxy Hy]. right. exists w.
      destruct (CL a y w ltac:(now left) Hy) as [-> | ->]; [congruence|exact Hy]. }
    destruct (X b Hab) as [->|X']; [congruence|exact X'].
  Qed.
  Lemma pair_fg a b d : isolated_pair raw a b -> In (b, d) (raw a) -> fg a = [(b, d)].
  Proof.
    intros (Hne & _ & HA & _) Hin.
    assert (Hf : In (b, d) (fg a)) by (apply (fg_iff n raw ttime OK); auto).
    assert (ALL : forall x, In x (fg a) -> x = (b, d)).
    { intros [c w] Hx. pose proof Hx as Hx'. apply (fg_iff n raw ttime OK) in Hx' as [Hac Hc]. destruct (HA c w Hc) as [-> | ->]; [congruence|].
      f_equal. eapply (go_single _ _ _ OK); eauto. }
    pose proof (fg_sorted raw a) as S. destruct (fg a) as [|x [|y l]]; [destruct Hf|f_equal; apply ALL; now left|].
    inversion S as [|? ? _ F]; subst. inversion F as [|? ? T _]; subst. unfold tlt in T.
    rewrite (ALL x), (ALL y) in T by (cbn; auto). lia.
  Qed.
  Lemma process_2_spec a b w : isolated_pair raw a b ->
    In w (process_2 raw ttime beeline a b) <->
      exists s x, (w = (a, b, x) /\ shortest raw ttime a b s /\ adjusted beeline a b s = Some x) \/
                  (w = (b, a, x) /\ shortest raw ttime b a s /\ adjusted beeline b a s = Some x).
  Proof.
    intros HP. pose proof HP as (_ & (d & Hd) & _). pose proof (go_sym _ _ _ OK _ _ _ Hd) as Hd'.
    pose proof (pair_sym a b HP) as HP'. unfold process_2. rewrite (pair_fg a b d HP Hd), (pair_fg b a d HP' Hd'). cbn [snd].
    pose proof (go_range _ _ _ OK _ _ _ Hd) as (_ & _ & R). rewrite !to_u8_id by exact R.
    pose proof (pair_shortest a b d HP Hd) as S1. pose proof (pair_shortest b a d HP' Hd') as S2.
    assert (E1 : max3 d (ttime a) (ttime b) = max3 (ttime a) (ttime b) d) by (unfold max3; lia).
    assert (E2 : max3 d (ttime a) (ttime b) = max3 (ttime b) (ttime a) d) by (unfold max3; lia).
    assert (U : forall x y s s', shortest raw ttime x y s -> shortest raw ttime x y s' -> s = s').
    { intros x y s s' [A1 A2] [B1 B2]. specialize (A2 _ B1). specialize (B2 _ A1). lia. }
    rewrite in_app_iff, !write_in. split.
    - intros [(x & X1 & X2)|(x & X1 & X2)].
      + exists (max3 (ttime a) (ttime b) d), x. left. rewrite <- E1 at 2. auto.
      + exists (max3 (ttime b) (ttime a) d), x. right. rewrite <- E2 at 2. auto.
    - intros (s & x & [(X1 & X2 & X3)|(X1 & X2 & X3)]).
      + left. exists x. rewrite E1, (U _ _ _ _ S1 X2). auto.
      + right. exists x. rewrite E2, (U _ _ _ _ S2 X2). auto.
  Qed.

  (** ** All components *)
  Definition final (w : nat * nat * Z) : Prop :=
    exists a b s x, w = (a, b, x) /\ a <> b /\ shortest raw ttime a b s /\ (s < max_len \/ isolated_pair raw a b) /\ adjusted beeline a b s = Some x.
  Lemma walk_conn a b d : walk raw ttime a b d -> conn raw a b.
  Proof.
    induction 1 as [|b c d w _ IH He]; [constructor|]. destruct (Nat.eq_dec b c) as [<-|Hne]; [exact IH|].
    apply conn_step with b; [exact IH|]. apply adj_iff. exists w. apply (fg_iff n raw ttime OK). auto.
  Qed.
  Lemma same_component m a b : In m C -> In a m -> conn raw a b -> In b m.
  Proof.
    intros Hm Ha Hc. destruct (components_spec n raw ttime OK m Hm) as (r & CO). apply (co_in _ _ _ _ CO).
    apply conn_trans with a; [now apply (co_in _ _ _ _ CO)|exact Hc].
  Qed.
  Lemma pair_length m a b : In m C -> In a m -> isolated_pair raw a b -> m = [a; b] \/ m = [b; a].
  Proof.
    intros Hm Ha (Hne & (w & Hw) & HA & HB). destruct (components_spec n raw ttime OK m Hm) as (r & CO).
    assert (Hb : In b m) by (eapply (closed_in n raw r m CO a b w); eauto; apply (fg_iff n raw ttime OK); auto).
    assert (ALL : forall c, In c m -> c = a \/ c = b).
    { intros c Hc. assert (X : conn raw a c).
      { apply conn_trans with r; [apply (conn_sym n raw ttime OK)|]; now apply (co_in _ _ _ _ CO). }
      induction X as [|x c _ IH Hy]; [now left|].
      apply adj_iff in Hy as (v & Hy). pose proof Hy as Hy'. apply (fg_iff n raw ttime OK) in Hy as [_ Hy].
      assert (Hx : In x m) by (eapply (closed_in n raw r m CO c x v); eauto; now apply (fg_sym n raw ttime OK)).
      destruct (IH Hx) as [-> | ->]; [apply (HA c v Hy)|apply (HB c v Hy)]. }
    pose proof (co_sorted _ _ _ _ CO) as S. pose proof (co_size _ _ _ _ CO) as L.
    destruct m as [|x [|y [|z m]]]; cbn in L; try lia.
    - inversion S as [|? ? _ F]; subst. inversion F as [|? ? T _]; subst.
      destruct (ALL x ltac:(now left)) as [-> | ->], (ALL y ltac:(right; now left)) as [-> | ->]; auto; lia.
    - exfalso. inversion S as [|? ? S' F]; subst. inversion F as [|? ? T F']; subst. inversion F' as [|? ? T' _]; subst.
      inversion S' as [|? ? _ F2]; subst. inversion F2 as [|? ? T2 _]; subst.
      destruct (ALL x ltac:(now left)) as [-> | ->], (ALL y ltac:(right; now left)) as [-> | ->], (ALL z ltac:(right; right; now left)) as [-> | ->]; lia.
  Qed.
  Lemma no_edges a b d : fg a = [] -> walk raw ttime a b d -> b = a.
  Proof.
    intros Ea. induction 1 as [|b c d w Hw IH He]; auto. subst b. destruct (Nat.eq_dec a c) as [<-|Hac]; auto.
    assert (X : In (c, w) (fg a)) by (apply (fg_iff n raw ttime OK); auto). rewrite Ea in X. destruct X.
  Qed.
  Lemma shortest_exists a b d : walk raw ttime a b d -> d < max_len -> exists s, shortest raw ttime a b s.
  Proof.
    intros Hw Hd. destruct (Nat.eq_dec a b) as [<-|Hne].
    { exists 0. split; [constructor|]. apply (walk_nonneg n raw ttime OK). }
    assert (Ha : fg a <> []) by (intros Ea; apply Hne; symmetry; eapply no_edges; eauto).
    destruct (components_complete n raw ttime OK a Ha) as (m & Hm & Ham).
    pose proof (same_component m a b Hm Ham (walk_conn a b d Hw)) as Hbm. destruct (components_spec n raw ttime OK m Hm) as (r & CO).
    destruct (In_nth_error m a Ham) as (k & Ek). destruct (In_nth_error m b Hbm) as (v & Ev).
    destruct (dists_spec n raw ttime OK r m CO max_len ltac:(lia) k a Ek) as (f0 & H). destruct (H f0 (le_n _)) as (D & _ & HD).
    destruct (HD v b Ev) as [H1 H2]. exists (D v). apply (proj1 (H1 (D v))). split; [reflexivity|]. eapply H2; eauto.
  Qed.
  Lemma connect_spec : exists f0, forall f, (f0 <= f)%nat ->
    exists ws, connect_components n raw ttime max_len beeline f = Some ws /\ forall w, In w ws <-> final w.
  Proof.
    destruct (all_fuel (filter (fun m => negb (is_pair m)) C)
      (fun f m => exists ws, process_component raw ttime max_len beeline f m = Some ws /\ forall w, In w ws <-> written m w)) as (f0 & H).
    { intros m Hm. apply filter_In in Hm as [Hm Hp]. destruct (components_spec n raw ttime OK m Hm) as (r & CO).
      apply (process_component_spec r m CO). pose proof (co_size _ _ _ _ CO). unfold is_pair in Hp.
      destruct (Nat.eqb_spec (length m) 2); [discriminate|lia]. }
    exists f0. intros f Hf. unfold connect_components.
    destruct (opt_concat_spec (process_component raw ttime max_len beeline f) written (filter (fun m => negb (is_pair m)) C) (H f Hf)) as (ws & E & W).
    rewrite E. eexists. split; [reflexivity|]. intros w. rewrite in_app_iff, W, in_flat_map. split.
    - intros [(m & Hm & Hw)|(m & Hm & Hw)]; apply filter_In in Hm as [Hm Hp]; destruct (components_spec n raw ttime OK m Hm) as (r & CO).
      + destruct m as [|a [|b [|c m]]]; try contradiction. pose proof (component_pair r a b CO) as P.
        apply (process_2_spec a b w P) in Hw. destruct Hw as (s & x & [(X1 & X2 & X3)|(X1 & X2 & X3)]).
        * exists a, b, s, x. split; [exact X1|]. split; [apply P|]. auto.
        * exists b, a, s, x. split; [exact X1|]. split; [apply not_eq_sym, P|]. split; [exact X2|]. split; [right; now apply pair_sym|exact X3].
      + destruct Hw as (a & b & s & x & X1 & _ & _ & X2 & X3 & X4 & X5). exists a, b, s, x. auto 6.
    - intros (a & b & s & x & -> & Hne & S & Hs & X). pose proof (walk_conn a b s (proj1 S)) as Hc.
      assert (Ha : fg a <> []).
      { intros Ea. apply Hne. symmetry. eapply no_edges; [exact Ea|apply S]. }
      destruct (components_complete n raw ttime OK a Ha) as (m & Hm & Ham).
      pose proof (same_component m a b Hm Ham Hc) as Hbm. destruct (components_spec n raw ttime OK m Hm) as (r & CO).
      destruct (is_pair m) eqn:Ep.
      + left. exists m. split; [apply filter_In; auto|].
        unfold is_pair in Ep. apply Nat.eqb_eq in Ep. destruct m as [|p [|q [|z m]]]; try discriminate.
        pose proof (component_pair r p q CO) as P. apply (process_2_spec p q (a, b, x) P). exists s, x.
        destruct Ham as [<-|[<-|[]]], Hbm as [<-|[<-|[]]]; try congruence; auto.
      + right. exists m. split; [apply filter_In; rewrite Ep; auto|]. exists a, b, s, x. split; [reflexivity|]. split; [exact Ham|]. split; [exact Hbm|].
        split; [exact Hne|]. split; [exact S|]. split; [|exact X]. destruct Hs as [Hs|P]; [exact Hs|].
        exfalso. destruct (pair_length m a b Hm Ham P) as [-> | ->]; discriminate.
  Qed.
End Final.

(** ** Sorting *)
Definition by_duration (l : list (nat * Z)) : Prop := StronglySorted (fun a b => snd a <= snd b) l.
Lemma insert_duration_in e l x : In x (insert_duration e l) <-> x = e \/ In x l.
Proof.
  induction l as [|y l IH]; cbn [insert_duration].
  - cbn. split; intros [A|[]]; auto.
  - destruct (snd e <? snd y); cbn [In]; [|rewrite IH]; (split; [intros [A|A]; auto; try tauto|intros [A|A]; auto; try tauto]); destruct A; auto.
Qed.
Lemma insert_duration_sorted e l : by_duration l -> by_duration (insert_duration e l).
Proof.
  unfold by_duration. induction 1 as [|y l Hl IH Hy]; cbn [insert_duration].
  - repeat constructor.
  - destruct (Z.ltb_spec (snd e) (snd y)).
    + constructor; [now constructor|]. constructor; [lia|]. eapply Forall_impl; [|exact Hy]. cbn. intros; lia.
    + constructor; [exact IH|]. apply Forall_forall. intros x Hx. apply insert_duration_in in Hx as [->|Hx]; [lia|]. rewrite Forall_forall in Hy. now apply Hy.
Qed.
Lemma sort_duration_spec l : by_duration (sort_duration l) /\ forall x, In x (sort_duration l) <-> In x l.
Proof.
  unfold sort_duration.
  assert (G : forall k acc, by_duration acc -> by_duration (fold_left (fun acc e => insert_duration e acc) k acc) /\
                (forall x, In x (fold_left (fun acc e => insert_duration e acc) k acc) <-> In x k \/ In x acc)).
  { induction k as [|e l' IH]; intros acc H; cbn [fold_left].
    - split; [exact H|]. intros x. cbn. tauto.
    - destruct (IH (insert_duration e acc) (insert_duration_sorted e acc H)) as [A B]. split; [exact A|]. intros x. rewrite B, insert_duration_in. cbn [In]. split; [intros [X|[X|X]]|intros [[X|X]|X]]; auto. }
  destruct (G l [] ltac:(constructor)) as [A B]. split; [exact A|]. intros x. rewrite B. cbn. tauto.
Qed.
Lemma out_of_in ws a b d : In (b, d) (out_of ws a) <-> In (a, b, d) ws.
Proof.
  unfold out_of. rewrite (proj2 (sort_duration_spec _)), in_flat_map. split.
  - intros ([[x y] e] & H1 & H2). destruct (Nat.eqb_spec x a) as [->|]; [|destruct H2]. destruct H2 as [[= -> ->]|[]]. exact H1.
  - intros H. exists (a, b, d). split; [exact H|]. rewrite Nat.eqb_refl. now left.
Qed.
Lemma in_of_in ws a b d : In (a, d) (in_of ws b) <-> In (a, b, d) ws.
Proof.
  unfold in_of. rewrite (proj2 (sort_duration_spec _)), in_flat_map. split.
  - intros ([[x y] e] & H1 & H2). destruct (Nat.eqb_spec y b) as [->|]; [|destruct H2]. destruct H2 as [[= -> ->]|[]]. exact H1.
  - intros H. exists (a, b, d). split; [exact H|]. rewrite Nat.eqb_refl. now left.
Qed.

(** * C39 *)
(** Minutes stored for a shortest walk of [s] minutes: [s]; with the option to adjust footpaths, the beeline time at walking speed if that is
    longer (pairs without a beeline time are dropped; the result is an 8 bit number). *)
Definition stored_minutes (beeline : option (nat -> nat -> option Z)) (a b : nat) (s d : Z) : Prop :=
  match beeline with
  | None => d = s
  | Some f => exists m, f a b = Some m /\ d = (if s <? m then m else s) mod 256
  end.
Lemma stored_adjusted beeline a b s d : adjusted beeline a b s = Some d <-> stored_minutes beeline a b s d.
Proof.
  unfold adjusted, stored_minutes. destruct beeline as [f|]; [|split; congruence].
  assert (E : forall m, Z.max s m = if s <? m then m else s) by (intros m; destruct (Z.ltb_spec s m); lia).
  destruct (f a b) as [m|].
  - unfold to_u8. rewrite E. split; [intros [= <-]; eauto|]. intros (m' & [= <-] & ->). reflexivity.
  - split; [discriminate|]. intros (m & [=] & _).
Qed.
(** Every graph of footpaths that are given in both directions can be imported; the outgoing footpaths of a location lead to
    exactly the locations that can be reached on foot within the maximum footpath length (strictly below; no limit for a pair of
    locations that is linked to nothing else), with the length of a shortest walk (each footpath taking at least the transfer times of its
    ends), adjusted to the walking speed if that option is set.  Incoming footpaths mirror the outgoing ones; both are sorted by duration. *)
Theorem C39_footpaths_are_shortest_walks :
  forall n raw ttime max_len beeline, graph_ok n raw ttime -> 1 <= max_len <= 256 ->
    exists f0, forall fuel, (f0 <= fuel)%nat -> exists out inn,
      build_footpaths n raw ttime max_len beeline fuel = Some (out, inn) /\
      (forall a b d, In (b, d) (out a) <->
         a <> b /\ exists s, shortest raw ttime a b s /\ (s < max_len \/ isolated_pair raw a b) /\ stored_minutes beeline a b s d) /\
      (forall a b d, In (b, d) (out a) <-> In (a, d) (inn b)) /\
      (forall a, by_duration (out a) /\ by_duration (inn a)).
Proof.
  intros n raw ttime max_len beeline OK Hm. destruct (connect_spec n raw ttime max_len beeline OK Hm) as (f0 & H).
  exists f0. intros fuel Hf. destruct (H fuel Hf) as (ws & E & W). exists (out_of ws), (in_of ws).
  unfold build_footpaths. rewrite E. split; [reflexivity|]. split; [|split].
  - intros a b d. rewrite out_of_in, W. unfold final. split.
    + intros (a' & b' & s & x & [= <- <- <-] & A & B & C & D). split; [exact A|]. exists s. rewrite <- stored_adjusted. auto.
    + intros (A & s & B & C & D). exists a, b, s, d. rewrite <- stored_adjusted in D. auto.
  - intros a b d. now rewrite out_of_in, in_of_in.
  - intros a. split; apply sort_duration_spec.
Qed.
(** Locations that cannot be reached on foot are never linked, and the closure is transitive. *)
Theorem C39_only_reachable_and_transitive :
  forall n raw ttime max_len, graph_ok n raw ttime -> 1 <= max_len <= 256 ->
    exists f0, forall fuel, (f0 <= fuel)%nat -> exists out inn,
      build_footpaths n raw ttime max_len None fuel = Some (out, inn) /\
      (forall a b d, In (b, d) (out a) -> exists s, walk raw ttime a b s) /\
      (forall a b c d e, In (b, d) (out a) -> In (c, e) (out b) -> d + e < max_len -> a <> c ->
         exists f, In (c, f) (out a) /\ f <= d + e).
Proof.
  intros n raw ttime max_len OK Hm. destruct (C39_footpaths_are_shortest_walks n raw ttime max_len None OK Hm) as (f0 & H).
  exists f0. intros fuel Hf. destruct (H fuel Hf) as (out & inn & E & W & _ & _). exists out, inn. split; [exact E|]. split.
  - intros a b d Hd. apply W in Hd as (_ & s & [S _] & _). eauto.
  - intros a b c d e Hd He Hlt Hac. apply W in Hd as (_ & s & [S1 S2] & _ & Ed). cbn in Ed. subst s. apply W in He as (_ & s' & [T1 T2] & _ & Ed). cbn in Ed. subst s'.
    assert (WT : forall x y, walk raw ttime b x y -> walk raw ttime a x (d + y)).
    { induction 1 as [|x z y w _ IH Hz]; [now rewrite Z.add_0_r|]. rewrite Z.add_assoc. now apply (walk_on raw ttime a x). }
    pose proof (WT c e T1) as Hw.
    destruct (shortest_exists n raw ttime max_len OK Hm a c _ Hw Hlt) as (f & S).
    assert (Hf' : f <= d + e) by (apply S; exact Hw). exists f. split; [|exact Hf'].
    apply W. split; [exact Hac|]. exists f. split; [exact S|]. split; [left; lia|reflexivity].
Qed.

(** A line 0 - 1 - 2 (10 and 20 minutes), a pair 4 - 5 (44 minutes); transfer times of 2 minutes; maximum 35 minutes. *)
Definition ex39 (a : nat) : list (nat * Z) :=
  match a with
  | 0%nat => [(1%nat, 10)] | 1%nat => [(0%nat, 10); (2%nat, 20)] | 2%nat => [(1%nat, 20)]
  | 4%nat => [(5%nat, 44)] | 5%nat => [(4%nat, 44)] | _ => []
  end.
Example C39_example :
  graph_ok 6 ex39 (fun _ => 2) /\
  option_map (fun x => map (fst x) (seq 0 6)) (build_footpaths 6 ex39 (fun _ => 2) 35 None 1000) =
    Some [[(1%nat, 10); (2%nat, 30)]; [(0%nat, 10); (2%nat, 20)]; [(1%nat, 20); (0%nat, 30)]; []; [(5%nat, 44)]; [(4%nat, 44)]].
Proof.
  split; [|vm_compute; reflexivity]. constructor.
  - intros a b d H. do 6 (destruct a as [|a]; [cbn in H; repeat destruct H as [[= <- <-]|H]; try destruct H; lia|]). destruct H.
  - intros a b d H. do 6 (destruct a as [|a]; [cbn in H; repeat destruct H as [[= <- <-]|H]; try destruct H; cbn; auto|]). destruct H.
  - intros a b d d' H H'. do 6 (destruct a as [|a]; [cbn in H, H'; repeat destruct H as [[= <- <-]|H]; try destruct H; repeat destruct H' as [[= <-]|H']; try destruct H'; try reflexivity; congruence|]). destruct H.
  - intros; lia.
Qed.
(** Without the conditions: *)
(** A footpath given in one direction only can make the import fail: 0 -> 1 and 2 -> 1. *)
Theorem C39_one_way_footpaths_refuted : exists raw,
  (forall a b d, In (b, d) (raw a) -> (a < 3)%nat /\ (b < 3)%nat /\ 0 <= d <= 255) /\
  (forall a b b' d d', In (b, d) (raw a) -> In (b', d') (raw a) -> (b, d) = (b', d')) /\
  forall max_len beeline fuel, build_footpaths 3 raw (fun _ => 2) max_len beeline fuel = None.
Proof.
  exists (fun a => match a with 0%nat => [(1%nat, 5)] | 2%nat => [(1%nat, 6)] | _ => [] end). split; [|split].
  - intros a b d H. do 3 (destruct a as [|a]; [cbn in H; repeat destruct H as [[= <- <-]|H]; try destruct H; lia|]). destruct H.
  - intros a b b' d d' H H'. do 3 (destruct a as [|a]; [cbn in H, H'; first [contradiction|destruct H as [[= <- <-]|[]]; destruct H' as [[= <- <-]|[]]; reflexivity]|]). destruct H.
  - intros. reflexivity.
Qed.
(** One-way footpaths can also yield a wrong duration: 0 -> 1 takes 3 minutes, 0 -> 3 takes 50 minutes; with 2 -> 1 the footpath 0 -> 3 takes
    3 minutes. *)
Theorem C39_one_way_duration_refuted : exists raw fuel,
  raw 0%nat = [(1%nat, 3); (3%nat, 50)] /\
  match build_footpaths 4 raw (fun _ => 2) 100 None fuel with Some (out, inn) => out 0%nat = [(3%nat, 3)] | None => False end.
Proof.
  exists (fun a => match a with 0%nat => [(1%nat, 3); (3%nat, 50)] | 2%nat => [(1%nat, 6)] | _ => [] end), 100%nat.
  split; [reflexivity|]. vm_compute. reflexivity.
Qed.
(** With a limit above 256 minutes (1000 here; the default argument of [finalize] is 65535) a walk of 300 minutes becomes a footpath of 44 minutes. *)
Theorem C39_long_walks_wrap_refuted : exists raw fuel,
  graph_ok 3 raw (fun _ => 2) /\ shortest raw (fun _ => 2) 0 2 300 /\
  match build_footpaths 3 raw (fun _ => 2) 1000 None fuel with Some (out, inn) => In (2%nat, 44) (out 0%nat) | None => False end.
Proof.
  set (raw := fun a : nat => match a with 0%nat => [(1%nat, 150)] | 1%nat => [(0%nat, 150); (2%nat, 150)] | 2%nat => [(1%nat, 150)] | _ => [] end).
  assert (OK : graph_ok 3 raw (fun _ => 2)).
  { constructor.
    - intros a b d H. do 3 (destruct a as [|a]; [cbn in H; repeat destruct H as [[= <- <-]|H]; try destruct H; lia|]). destruct H.
    - intros a b d H. do 3 (destruct a as [|a]; [cbn in H; repeat destruct H as [[= <- <-]|H]; try destruct H; cbn; auto|]). destruct H.
    - intros a b d d' H H'. do 3 (destruct a as [|a]; [cbn in H, H'; repeat destruct H as [[= <- <-]|H]; try destruct H; repeat destruct H' as [[= <-]|H']; try destruct H'; try reflexivity; congruence|]). destruct H.
    - intros; lia. }
  exists raw, 100%nat. split; [exact OK|]. split.
  - split.
    + change 300 with (0 + max3 2 2 150 + max3 2 2 150). apply (walk_on raw (fun _ => 2) 0%nat 1%nat); [|cbn; auto].
      apply (walk_on raw (fun _ => 2) 0%nat 0%nat); [constructor|cbn; auto].
    + intros d Hd. assert (G : forall b d, walk raw (fun _ => 2) 0 b d -> (b = 0%nat /\ 0 <= d) \/ (b = 1%nat /\ 150 <= d) \/ (b = 2%nat /\ 300 <= d)).
      { induction 1 as [|b c e w _ IH He]; [left; split; [reflexivity|lia]|].
        destruct IH as [[-> I]|[[-> I]|[-> I]]]; cbn in He; repeat destruct He as [[= <- <-]|He]; try destruct He; unfold max3; lia. }
      destruct (G 2%nat d Hd) as [[E _]|[[E _]|[_ E]]]; try discriminate. lia.
  - vm_compute. auto.
Qed.
Print Assumptions C39_footpaths_are_shortest_walks.
Print Assumptions C39_only_reachable_and_transitive.
Print Assumptions C39_long_walks_wrap_refuted.
