(** Property C25: through-running chains of a block. *)
From Coq Require Import List ZArith Lia Bool Arith Permutation.
From Verif Require Import Base Calendar_Model Block_Model.
Import ListNotations.
Local Open Scope Z_scope.

Definition sub_days (a b : bitfield) : Prop := forall d, a d = true -> b d = true.
Definition in_range (a : bitfield) : Prop := forall d, a d = true -> 0 <= d < 512.
Definition disj (a b : bitfield) : Prop := forall d, a d = true -> b d = true -> False.

Lemma bf_any_false a : in_range a -> bf_any a = false -> forall d, a d = false.
Proof.
  intros Hr H d. destruct (a d) eqn:E; auto. rewrite <- H. symmetry. apply existsb_exists.
  exists d. split; auto. apply in_map_iff. exists (Z.to_nat d). specialize (Hr d E). split; [lia|]. apply in_seq. lia.
Qed.
Lemma bf_any_true (a : bitfield) d : 0 <= d < 512 -> a d = true -> bf_any a = true.
Proof.
  intros Hd H. unfold bf_any. apply existsb_exists. exists d. split; auto.
  apply in_map_iff. exists (Z.to_nat d). split; [lia|]. apply in_seq. lia.
Qed.
Global Opaque bf_any.

Fixpoint disjoint_list (l : list (nat * bitfield)) : Prop :=
  match l with [] => True | x :: r => (forall y, In y r -> disj (snd x) (snd y)) /\ disjoint_list r end.
Lemma disjoint_snoc l x : disjoint_list l -> (forall y, In y l -> disj (snd y) (snd x)) -> disjoint_list (l ++ [x]).
Proof.
  induction l as [|y l IH]; simpl; intros H Hx; [split; [tauto|auto]|]. destruct H as [H1 H2]. split.
  - intros z Hz. apply in_app_iff in Hz. destruct Hz as [Hz|[<-|[]]]; auto.
  - apply IH; auto.
Qed.

Section Chains.
  Variable trips : list block_trip.
  Notation n := (length trips).
  Definition meets (i j : nat) : Prop :=
    exists a b, nth_error trips i = Some a /\ nth_error trips j = Some b /\ bt_last_loc a = bt_first_loc b.
  Fixpoint linked (l : list nat) : Prop :=
    match l with
    | [] => True
    | x :: r => (x < n)%nat /\ match r with [] => True | y :: _ => (x < y)%nat /\ meets x y end /\ linked r
    end.
  Lemma linked_snoc l i j : linked (l ++ [i]) -> (i < j < n)%nat -> meets i j -> linked ((l ++ [i]) ++ [j]).
  Proof.
    induction l as [|x l IH]; intros H Hij Hm.
    - simpl in *. intuition lia.
    - destruct l as [|y l]; simpl in *.
      + intuition lia.
      + destruct H as (H1 & H2 & H3). split; auto.
  Qed.
  Lemma linked_lt l x y : linked (x :: l) -> In y l -> (x < y)%nat.
  Proof.
    revert x. induction l as [|z l IH]; intros x H Hy; [destruct Hy|].
    destruct H as (_ & (H1 & _) & H2). destruct Hy as [<-|Hy]; auto. specialize (IH z H2 Hy). lia.
  Qed.
  Lemma linked_nodup l : linked l -> NoDup l.
  Proof.
    induction l as [|x l IH]; intros H; constructor.
    - intros Hin. apply (linked_lt l x x) in Hin; auto. lia.
    - apply IH. apply H.
  Qed.
  Lemma linked_bound l x : linked l -> In x l -> (x < n)%nat.
  Proof.
    induction l as [|y l IH]; simpl; intros H Hin; [destruct Hin|]. destruct Hin as [<-|Hin]; [tauto|]. apply IH; tauto.
  Qed.

  Lemma successors_spec days i cur succs td acc :
    nth_error trips i = Some cur -> (forall j, In j succs -> (j < n)%nat) ->
    let (r, p) := successors trips days cur succs td acc in
    sub_days r td /\
    exists new, p = new ++ acc /\
      (forall j dj, In (j, dj) new -> In j succs /\ meets i j /\
          (forall d, dj d = true -> td d = true /\ days j d = true /\ r d = false)) /\
      disjoint_list new /\
      (forall d, 0 <= d < 512 -> td d = true -> r d = false -> exists j dj, In (j, dj) new /\ dj d = true).
  Proof.
    intros Hi. revert td acc. induction succs as [|j succs IH]; intros td acc Hs; cbn [successors].
    - split; [intros d; auto|]. exists []. split; [auto|]. split; [simpl; tauto|]. split; [exact I|]. intros; congruence.
    - assert (Hs' : forall j, In j succs -> (j < n)%nat) by (intros; apply Hs; now right).
      destruct (negb (bt_last_loc cur =? bt_first_loc (nth j trips cur))) eqn:E.
      + specialize (IH td acc Hs'). destruct (successors trips days cur succs td acc) as [r p].
        destruct IH as (H1 & new & H2 & H3 & H4 & H5). split; auto. exists new. split; auto. split; auto.
        intros j' dj H. destruct (H3 j' dj H) as (? & ? & ?). split; [now right|auto].
      + apply negb_false_iff, Z.eqb_eq in E.
        set (inter := bf_and td (days j)). set (td' := bf_andnot td (days j)).
        assert (Hm : meets i j).
        { assert (Hj : (j < n)%nat) by (apply Hs; now left).
          exists cur, (nth j trips cur). split; auto. split; auto. now apply nth_error_nth'. }
        assert (Htd' : forall d, td' d = true -> td d = true /\ days j d = false).
        { intros d H. unfold td', bf_andnot in H. apply andb_true_iff in H. destruct H as [? H]. apply negb_true_iff in H. auto. }
        assert (Hinter : forall d, inter d = true -> td d = true /\ days j d = true).
        { intros d H. unfold inter, bf_and in H. now apply andb_true_iff in H. }
        destruct (bf_any inter) eqn:Ea.
        * specialize (IH td' ((j, inter) :: acc) Hs'). destruct (successors trips days cur succs td' ((j, inter) :: acc)) as [r p].
          destruct IH as (H1 & new & H2 & H3 & H4 & H5).
          split; [intros d Hd; now apply Htd', H1|]. exists (new ++ [(j, inter)]). split; [rewrite <- app_assoc; exact H2|].
          split; [|split].
          -- intros j' dj H. apply in_app_iff in H. destruct H as [H|[H|[]]].
             ++ destruct (H3 j' dj H) as (G1 & G2 & G3). split; [now right|]. split; auto.
                intros d Hd. destruct (G3 d Hd) as (K1 & K2 & K3). destruct (Htd' d K1). auto.
             ++ injection H as <- <-. split; [now left|]. split; auto. intros d Hd. destruct (Hinter d Hd) as [K1 K2]. split; auto. split; auto.
                destruct (r d) eqn:Er; auto. apply H1 in Er. apply Htd' in Er. destruct Er. congruence.
          -- apply disjoint_snoc; auto. intros [j' dj] Hin d Hd1 Hd2. simpl in *.
             destruct (H3 j' dj Hin) as (_ & _ & G3). destruct (G3 d Hd1) as (K1 & _). apply Htd' in K1. apply Hinter in Hd2.
             destruct K1, Hd2. congruence.
          -- intros d Hd Ht Hr. destruct (days j d) eqn:Ej.
             ++ exists j, inter. split; [apply in_app_iff; right; now left|]. unfold inter, bf_and. now rewrite Ht, Ej.
             ++ destruct (H5 d Hd) as (j' & dj & K1 & K2); auto.
                { unfold td', bf_andnot. now rewrite Ht, Ej. }
                exists j', dj. split; auto. apply in_app_iff. now left.
        * specialize (IH td' acc Hs'). destruct (successors trips days cur succs td' acc) as [r p].
          destruct IH as (H1 & new & H2 & H3 & H4 & H5).
          split; [intros d Hd; now apply Htd', H1|]. exists new. split; auto. split; [|split]; auto.
          -- intros j' dj H. destruct (H3 j' dj H) as (G1 & G2 & G3). split; [now right|]. split; auto.
             intros d Hd. destruct (G3 d Hd) as (K1 & K2 & K3). destruct (Htd' d K1). auto.
          -- intros d Hd Ht Hr. apply (H5 d Hd); auto. unfold td', bf_andnot. rewrite Ht. simpl.
             destruct (days j d) eqn:Ej; auto. exfalso.
             assert (Hi' : inter d = true) by (unfold inter, bf_and; now rewrite Ht, Ej).
             rewrite (bf_any_true inter d Hd Hi') in Ea. discriminate.
  Qed.

  (** Number of emitted chains that contain position [k] and run on day [d]. *)
  Definition cnt (out : list (list nat * bitfield)) (k : nat) (d : Z) : nat :=
    length (filter (fun cd => existsb (Nat.eqb k) (fst cd) && snd cd d) out).
  Lemma cnt_app a b k d : cnt (a ++ b) k d = (cnt a k d + cnt b k d)%nat.
  Proof. unfold cnt. now rewrite filter_app, app_length. Qed.
  Lemma existsb_in k l : existsb (Nat.eqb k) l = true <-> In k l.
  Proof.
    rewrite existsb_exists. split.
    - intros (x & Hx & H). apply Nat.eqb_eq in H. now subst.
    - intros H. exists k. split; auto. apply Nat.eqb_refl.
  Qed.

  (** What a (partial) run does to the state. *)
  Record step_ok (s s' : block_state) (touched : bitfield) : Prop := mk_so {
    so_mono : forall k d, bs_days s' k d = true -> bs_days s k d = true;
    so_frame : forall k d, touched d = false -> bs_days s' k d = bs_days s k d;
    so_out : exists new, bs_out s' = bs_out s ++ new /\
       (forall c ds, In (c, ds) new -> linked c /\ c <> [] /\ in_range ds) /\
       (forall k d, cnt new k d = if bs_days s k d && negb (bs_days s' k d) then 1%nat else 0%nat) }.

  Lemma step_trans s1 s2 s3 t1 t2 t :
    step_ok s1 s2 t1 -> step_ok s2 s3 t2 -> sub_days t1 t -> sub_days t2 t -> step_ok s1 s3 t.
  Proof.
    intros [M1 F1 (n1 & O1 & L1 & C1)] [M2 F2 (n2 & O2 & L2 & C2)] S1 S2. split.
    - auto.
    - intros k d Hd. rewrite F2, F1; auto.
      + destruct (t1 d) eqn:E; auto. apply S1 in E. congruence.
      + destruct (t2 d) eqn:E; auto. apply S2 in E. congruence.
    - exists (n1 ++ n2). split; [rewrite O2, O1, app_assoc; auto|]. split.
      + intros c ds H. apply in_app_iff in H. destruct H; eauto.
      + intros k d. rewrite cnt_app, C1, C2. specialize (M1 k d). specialize (M2 k d).
        destruct (bs_days s1 k d), (bs_days s2 k d), (bs_days s3 k d); simpl; auto;
          try (assert (false = true) by auto; discriminate).
  Qed.
  Lemma step_refl s t : step_ok s s t.
  Proof.
    split; auto. exists []. split; [now rewrite app_nil_r|]. split; [simpl; tauto|].
    intros. destruct (bs_days s k d); reflexivity.
  Qed.

  Definition ready (s : block_state) (chain : list nat) (td : bitfield) : Prop :=
    in_range td /\ forall d k, td d = true -> In k chain -> bs_days s k d = true.

  Lemma process_spec fuel : forall i collected td s,
    (n - i <= fuel)%nat -> linked (collected ++ [i]) -> ready s (collected ++ [i]) td ->
    let s' := process fuel trips i collected td s in
    step_ok s s' td /\ forall d k, td d = true -> In k (collected ++ [i]) -> bs_days s' k d = false.
  Proof.
    induction fuel as [|fuel IH]; intros i collected td s Hf Hl [Hr Hd].
    - assert (i < n)%nat by (eapply linked_bound; eauto; apply in_app_iff; right; now left). lia.
    - cbn [process].
      assert (Hi : (i < n)%nat) by (eapply linked_bound; eauto; apply in_app_iff; right; now left).
      destruct (nth_error trips i) as [cur|] eqn:Ec; [|apply nth_error_None in Ec; lia].
      set (chain := collected ++ [i]) in *.
      assert (Hs := successors_spec (bs_days s) i cur (seq (S i) (n - S i)) td [] Ec).
      destruct (successors trips (bs_days s) cur (seq (S i) (n - S i)) td []) as [rest pushed].
      destruct Hs as (S1 & new & -> & S3 & S4 & S5); [intros j Hj; apply in_seq in Hj; lia|].
      rewrite app_nil_r.
      set (s1 := if bf_any rest then _ else s).
      assert (Hrest_range : in_range rest) by (intros d H; apply Hr; auto).
      assert (Hs1 : step_ok s s1 rest /\ forall d k, rest d = true -> In k chain -> bs_days s1 k d = false).
      { unfold s1. destruct (bf_any rest) eqn:Ea.
        - split.
          + split; cbn [bs_days bs_out].
            * intros k d. destruct (existsb (Nat.eqb k) chain); auto. unfold bf_andnot. intros H. now apply andb_true_iff in H.
            * intros k d H. destruct (existsb (Nat.eqb k) chain); auto. unfold bf_andnot. rewrite H. apply andb_true_r.
            * exists [(chain, rest)]. split; auto. split.
              -- intros c ds [H|[]]. injection H as <- <-. split; auto. split; auto. unfold chain. intros H. apply app_eq_nil in H. destruct H; discriminate.
              -- intros k d. unfold cnt. cbn [filter fst snd].
                 destruct (existsb (Nat.eqb k) chain) eqn:Ek; cbn [andb].
                 ++ apply existsb_in in Ek. unfold bf_andnot. destruct (rest d) eqn:Erd; simpl.
                    ** rewrite (Hd d k); auto.
                    ** destruct (bs_days s k d); reflexivity.
                 ++ destruct (bs_days s k d); reflexivity.
          + cbn [bs_days]. intros d k H Hk. apply existsb_in in Hk. rewrite Hk. unfold bf_andnot. rewrite H. apply andb_false_r.
        - split; [apply step_refl|]. intros d k H. rewrite (bf_any_false rest Hrest_range Ea d) in H. discriminate. }
      destruct Hs1 as [Hst1 Hclr1].
      (* the pushed entries *)
      assert (Hfold : forall l st,
        disjoint_list l ->
        (forall j dj, In (j, dj) l -> (i < j < n)%nat /\ meets i j /\ in_range dj /\
             (forall d k, dj d = true -> In k (chain ++ [j]) -> bs_days st k d = true)) ->
        let st' := fold_left (fun st jd => process fuel trips (fst jd) chain (snd jd) st) l st in
        forall t, (forall j dj, In (j, dj) l -> sub_days dj t) ->
        step_ok st st' t /\ forall j dj d k, In (j, dj) l -> dj d = true -> In k chain -> bs_days st' k d = false).
      { induction l as [|[j dj] l IHl]; intros st Hdis Hl' st' t Ht.
        - split; [apply step_refl|simpl; tauto].
        - cbn [fold_left] in st'. destruct Hdis as [D1 D2]. cbn [fst snd] in *.
          destruct (Hl' j dj) as (J1 & J2 & J3 & J4); [now left|].
          assert (HP := IH j chain dj st ltac:(lia)). cbv zeta in HP.
          destruct HP as [P1 P2]; [apply linked_snoc; auto|split; auto|].
          set (st1 := process fuel trips j chain dj st) in *.
          assert (HQ := IHl st1 D2). cbv zeta in HQ.
          destruct (HQ) with (t := t) as [Q1 Q2].
          + intros j' dj' Hin. destruct (Hl' j' dj') as (K1 & K2 & K3 & K4); [now right|].
            split; auto. split; auto. split; auto. intros d k H1 H2.
            rewrite (so_frame _ _ _ P1); auto. destruct (dj d) eqn:E; auto. exfalso. exact (D1 (j', dj') Hin d E H1).
          + intros j' dj' Hin. apply (Ht j' dj'). now right.
          + assert (Hsub : sub_days dj t) by (apply (Ht j dj); now left).
            split.
            * eapply step_trans; [exact P1|exact Q1|exact Hsub|intros d; auto].
            * intros j' dj' d k [H|H] H1 H2.
              -- injection H as <- <-. destruct (bs_days st' k d) eqn:E; auto.
                 apply (so_mono _ _ _ Q1) in E. rewrite P2 in E; [discriminate|auto|]. apply in_app_iff. now left.
              -- eapply Q2; eauto. }
      assert (HF := Hfold new s1 S4). cbv zeta in HF. destruct HF with (t := td) as [F1 F2].
      { intros j dj Hin. destruct (S3 j dj Hin) as (K1 & K2 & K3). apply in_seq in K1. split; [lia|]. split; auto.
        split; [intros d H; apply Hr; now apply K3|].
        intros d k H Hk. destruct (K3 d H) as (G1 & G2 & G3). rewrite (so_frame _ _ _ Hst1) by auto.
        apply in_app_iff in Hk. destruct Hk as [Hk|[<-|[]]]; auto. }
      { intros j dj Hin d H. now apply (S3 j dj Hin). }
      set (s2 := fold_left _ new s1) in *. split.
      + eapply step_trans; [exact Hst1|exact F1|exact S1|intros d; auto].
      + intros d k H Hk. destruct (rest d) eqn:Er.
        * destruct (bs_days s2 k d) eqn:E; auto. apply (so_mono _ _ _ F1) in E. rewrite Hclr1 in E; auto.
        * destruct (S5 d) as (j & dj & K1 & K2); auto. eapply F2; eauto.
  Qed.

  Lemma starts_spec : forall starts s,
    (forall i, In i starts -> (i < n)%nat) ->
    (forall k, in_range (bs_days s k)) ->
    let s' := fold_left (fun st i => process n trips i [] (bs_days st i) st) starts s in
    step_ok s s' (fun _ => true) /\ forall i d, In i starts -> bs_days s' i d = false.
  Proof.
    induction starts as [|i starts IH]; intros s Hs Hr; cbn [fold_left].
    - split; [apply step_refl|simpl; tauto].
    - assert (HP := process_spec n i [] (bs_days s i) s ltac:(lia)). cbv zeta in HP. cbn [app] in HP.
      destruct HP as [P1 P2].
      + simpl. split; [apply Hs; now left|auto].
      + split; [apply Hr|]. intros d k H [<-|[]]. auto.
      + set (s1 := process n trips i [] (bs_days s i) s) in *.
        assert (HQ := IH s1). cbv zeta in HQ. destruct HQ as [Q1 Q2].
        * intros; apply Hs; now right.
        * intros k d H. apply (so_mono _ _ _ P1) in H. eapply Hr; eauto.
        * split.
          -- eapply step_trans; [exact P1|exact Q1|intros d; auto|intros d; auto].
          -- intros i' d [<-|Hin]; [|now apply Q2].
             match goal with |- ?x = false => destruct x eqn:E; auto end.
             apply (so_mono _ _ _ Q1) in E. destruct (bs_days s i d) eqn:Es.
             ++ rewrite P2 in E; [discriminate|auto|now left].
             ++ apply (so_mono _ _ _ P1) in E. congruence.
  Qed.
End Chains.

(** ** Sorting *)
Lemma insert_trip_perm t l : Permutation (insert_trip t l) (t :: l).
Proof.
  induction l as [|x l IH]; simpl; auto. destruct (bt_dep t <? bt_dep x); auto.
  rewrite IH. apply perm_swap.
Qed.
Lemma sort_trips_perm_gen l acc : Permutation (fold_left (fun acc t => insert_trip t acc) l acc) (acc ++ l).
Proof.
  revert acc. induction l as [|t l IH]; intros acc; simpl; [now rewrite app_nil_r|].
  rewrite IH, insert_trip_perm. simpl. apply Permutation_middle.
Qed.
Lemma sort_trips_perm l : Permutation (sort_trips l) l.
Proof. apply (sort_trips_perm_gen l []). Qed.
Definition dep_sorted (l : list block_trip) : Prop :=
  forall i j a b, (i <= j)%nat -> nth_error l i = Some a -> nth_error l j = Some b -> bt_dep a <= bt_dep b.
Lemma dep_sorted_cons x l : dep_sorted l -> (forall y, In y l -> bt_dep x <= bt_dep y) -> dep_sorted (x :: l).
Proof.
  intros H Hx i j a b Hij Ha Hb. destruct i as [|i], j as [|j]; simpl in *.
  - assert (a = b) by congruence. subst. lia.
  - injection Ha as <-. apply Hx. eapply nth_error_In; eauto.
  - lia.
  - apply (H i j); auto. lia.
Qed.
Lemma dep_sorted_inv x l : dep_sorted (x :: l) -> dep_sorted l /\ forall y, In y l -> bt_dep x <= bt_dep y.
Proof.
  intros H. split.
  - intros i j a b Hij Ha Hb. apply (H (S i) (S j)); auto. lia.
  - intros y Hy. apply In_nth_error in Hy. destruct Hy as (j & Hj). apply (H 0%nat (S j) x y); auto. lia.
Qed.
Lemma insert_trip_sorted t l : dep_sorted l -> dep_sorted (insert_trip t l).
Proof.
  induction l as [|x l IH]; intros H; cbn [insert_trip].
  - apply dep_sorted_cons; [|simpl; tauto]. intros [|i] j a b; simpl; intros; discriminate.
  - destruct (dep_sorted_inv _ _ H) as [H1 H2]. destruct (Z.ltb_spec (bt_dep t) (bt_dep x)).
    + apply dep_sorted_cons; auto. intros y [<-|Hy]; [lia|]. specialize (H2 y Hy). lia.
    + apply dep_sorted_cons; auto. intros y Hy. apply (Permutation_in _ (insert_trip_perm t l)) in Hy.
      destruct Hy as [<-|Hy]; auto.
Qed.
Lemma sort_trips_sorted l : dep_sorted (sort_trips l).
Proof.
  unfold sort_trips. assert (H : dep_sorted []) by (intros [|i] j a b; simpl; intros; discriminate).
  revert H. generalize (@nil block_trip). induction l as [|t l IH]; intros acc H; simpl; auto.
  apply IH. now apply insert_trip_sorted.
Qed.

(** ** C25 *)
(** Chains of trip identifiers: consecutive trips meet at the same location, in order of departure. *)
Fixpoint chain_ok (block : list block_trip) (c : list nat) : Prop :=
  match c with
  | [] => True
  | x :: r => (exists a, In a block /\ bt_idx a = x) /\
              match r with
              | [] => True
              | y :: _ => exists a b, In a block /\ In b block /\ bt_idx a = x /\ bt_idx b = y /\
                                      bt_last_loc a = bt_first_loc b /\ bt_dep a <= bt_dep b
              end /\ chain_ok block r
  end.

(** C25.  For every block (trips with distinct identifiers; service days among the timetable's 512 days): every trip
    with stop times runs, on each of its service days, in exactly one of the produced chains, and in no chain on any
    other day; no chain is empty or contains a trip twice; consecutive trips of a chain meet at the same location and
    are in order of departure. *)
Theorem C25_block_partition : forall block,
  NoDup (map bt_idx block) ->
  (forall t d, In t block -> bt_service t d = true -> 0 <= d < 512) ->
  (forall t d, In t block -> bt_has_stops t = true ->
     length (filter (fun cd => existsb (Nat.eqb (bt_idx t)) (fst cd) && snd cd d) (rule_services block))
     = if bt_service t d then 1%nat else 0%nat) /\
  (forall c ds, In (c, ds) (rule_services block) -> c <> [] /\ NoDup c /\ chain_ok (filter bt_has_stops block) c).
Proof.
  intros block Hnd Hrange. set (ts := filter bt_has_stops block).
  assert (Hnd' : NoDup (map bt_idx ts)).
  { unfold ts. clear - Hnd. induction block as [|t l IH]; simpl in *; auto. inversion Hnd; subst.
    destruct (bt_has_stops t); simpl; auto. constructor; auto. intros H. apply H1.
    apply in_map_iff in H. destruct H as (x & <- & Hx). apply filter_In in Hx. apply in_map. tauto. }
  assert (Hts : forall t, In t block -> bt_has_stops t = true -> In t ts) by (intros; apply filter_In; auto).
  assert (Hts' : forall t, In t ts -> In t block) by (intros t H; apply filter_In in H; tauto).
  assert (Hcase : (exists t, ts = [t]) \/
    rule_services block =
      let trips := sort_trips ts in
      let init := mk_bs (fun k => match nth_error trips k with Some t => bt_service t | None => bf_empty end) [] in
      let s := fold_left (fun st i => process (length trips) trips i [] (bs_days st i) st) (seq 0 (length trips)) init in
      map (fun cd => (map (fun i => match nth_error trips i with Some t => bt_idx t | None => 0%nat end) (fst cd), snd cd)) (bs_out s)).
  { unfold rule_services. fold ts. destruct ts as [|t [|t' l]]; [right; reflexivity|left; eauto|right; reflexivity]. }
  destruct Hcase as [(t0 & Ht0)|Hrs].
  - assert (Hrs : rule_services block = [([bt_idx t0], bt_service t0)]) by (unfold rule_services; fold ts; now rewrite Ht0).
    rewrite Hrs, Ht0. split.
    + intros t d Hin Hst. specialize (Hts t Hin Hst). rewrite Ht0 in Hts. destruct Hts as [->|[]].
      cbn [filter fst snd existsb]. rewrite Nat.eqb_refl. cbn [orb andb]. destruct (bt_service t d); reflexivity.
    + intros c ds [H|[]]. injection H as <- <-. split; [discriminate|]. split; [repeat constructor; auto|].
      cbn [chain_ok]. split; [exists t0; split; [now left|auto]|auto].
  - cbv zeta in Hrs. set (trips := sort_trips ts) in *. set (init := mk_bs _ []) in Hrs.
    assert (Hperm : Permutation trips ts) by apply sort_trips_perm.
    assert (Hndt : NoDup (map bt_idx trips)) by (eapply Permutation_NoDup; [|exact Hnd']; apply Permutation_map; now symmetry).
    assert (HS := starts_spec trips (seq 0 (length trips)) init). cbv zeta in HS.
    destruct HS as [[_ _ (new & Ho & HL & HC)] Hclr].
    + intros i H. apply in_seq in H. lia.
    + intros k d H. unfold init in H. cbn [bs_days] in H. destruct (nth_error trips k) as [t|] eqn:E; [|discriminate].
      apply (Hrange t); auto. apply Hts'. eapply Permutation_in; [exact Hperm|]. eapply nth_error_In; eauto.
    + cbn [init bs_out app] in Ho. unfold init in Ho. cbn [bs_out app] in Ho. fold init in Ho.
      set (s' := fold_left _ _ init) in *. rewrite Hrs, Ho.
      assert (Hidx : forall i j a b, nth_error trips i = Some a -> nth_error trips j = Some b -> bt_idx a = bt_idx b -> i = j).
      { intros i j a b Ha Hb Hab. apply (proj1 (NoDup_nth_error (map bt_idx trips)) Hndt).
        - rewrite map_length. apply nth_error_Some. congruence.
        - rewrite (map_nth_error bt_idx _ _ Ha), (map_nth_error bt_idx _ _ Hb). congruence. }
      split.
      * intros t d Hin Hst. assert (Ht : In t trips) by (eapply Permutation_in; [symmetry; exact Hperm|auto]).
        apply In_nth_error in Ht. destruct Ht as (k & Hk).
        assert (Hkn : (k < length trips)%nat) by (apply nth_error_Some; congruence).
        assert (Hck := HC k d). rewrite (Hclr k d) in Hck by (apply in_seq; lia).
        unfold init in Hck. cbn [bs_days] in Hck. rewrite Hk in Hck. rewrite andb_true_r in Hck. rewrite <- Hck.
        unfold cnt. clear - Hk Hidx HL.
        assert (Hb : forall c, linked trips c ->
          existsb (Nat.eqb (bt_idx t)) (map (fun i => match nth_error trips i with Some t => bt_idx t | None => 0%nat end) c) = existsb (Nat.eqb k) c).
        { induction c as [|x c IH]; intros Hl; auto. cbn [map existsb]. rewrite IH by apply Hl. f_equal.
          destruct Hl as (Hx & _ & _). destruct (nth_error trips x) as [tx|] eqn:Ex; [|apply nth_error_None in Ex; lia].
          destruct (Nat.eqb_spec (bt_idx t) (bt_idx tx)) as [E1|E1]; destruct (Nat.eqb_spec k x) as [E2|E2]; auto.
          - exfalso. apply E2. eapply Hidx; eauto.
          - subst. congruence. }
        induction new as [|[c ds] new IH]; auto. cbn [map filter fst snd].
        rewrite Hb by (apply (HL c ds); now left).
        destruct (existsb (Nat.eqb k) c && ds d); simpl; rewrite IH; auto; intros; apply (HL c0 ds0); now right.
      * intros c ds Hin. apply in_map_iff in Hin. destruct Hin as ([c0 ds0] & Heq & Hin). cbn [fst snd] in Heq. injection Heq as <- <-.
        destruct (HL c0 ds0 Hin) as (L1 & L2 & _). split; [destruct c0; [tauto|discriminate]|].
        assert (Hsorted : dep_sorted trips) by apply sort_trips_sorted.
        assert (Hmem : forall i a, nth_error trips i = Some a -> In a (filter bt_has_stops block))
          by (intros i a Ha; eapply Permutation_in; [exact Hperm|]; eapply nth_error_In; eauto).
        clear - L1 Hidx Hsorted Hmem. split.
        -- assert (Hn := linked_nodup _ _ L1).
           assert (Hb : forall x, In x c0 -> (x < length trips)%nat) by (intros x Hx; eapply linked_bound; eauto).
           clear L1. induction c0 as [|x c0 IH]; cbn [map]; constructor.
           ++ inversion Hn; subst. intros Hin. apply in_map_iff in Hin. destruct Hin as (y & Hy & Hin).
              destruct (nth_error trips x) as [a|] eqn:Ex; [|apply nth_error_None in Ex; specialize (Hb x ltac:(now left)); lia].
              destruct (nth_error trips y) as [b|] eqn:Ey; [|apply nth_error_None in Ey; specialize (Hb y ltac:(now right)); lia].
              assert (y = x) by (eapply Hidx; eauto). subst. auto.
           ++ apply IH; [now inversion Hn|]. intros; apply Hb; now right.
        -- induction c0 as [|x c0 IH]; [exact I|]. cbn [map chain_ok].
           destruct L1 as (Hx & Hm & L1).
           destruct (nth_error trips x) as [a|] eqn:Ex; [|apply nth_error_None in Ex; lia].
           split; [exists a; split; eauto|]. split; [|apply IH; exact L1].
           destruct c0 as [|y c0]; [exact I|]. cbn [map]. destruct Hm as (Hxy & a' & b & Ha & Hb & Hloc).
           rewrite Hb. assert (a' = a) by congruence. subst a'.
           exists a, b. split; [eauto|]. split; [eauto|]. split; [auto|]. split; [auto|]. split; [auto|].
           apply (Hsorted x y); auto. lia.
Qed.

(** Three trips A-B, B-C, B-D with different service days: on day 1 A-B continues to B-C, on day 2 to B-D, on day 3 it
    runs alone. *)
Definition c25_block : list block_trip :=
  [ mk_bt 0 true 600 10 11 (fun d => (d =? 1) || (d =? 2) || (d =? 3));
    mk_bt 1 true 700 11 12 (fun d => (d =? 1) || (d =? 5));
    mk_bt 2 true 710 11 13 (fun d => d =? 2) ].
Example C25_nonvacuous :
  NoDup (map bt_idx c25_block) /\ (forall t d, In t c25_block -> bt_service t d = true -> 0 <= d < 512) /\
  map (fun cd => (fst cd, map (snd cd) [1; 2; 3; 4; 5])) (rule_services c25_block)
  = [([0%nat], [false; false; true; false; false]); ([0; 2]%nat, [false; true; false; false; false]);
     ([0; 1]%nat, [true; false; false; false; false]); ([1%nat], [false; false; false; false; true])].
Proof.
  split; [repeat constructor; simpl; intuition discriminate|]. split; [|vm_compute; reflexivity].
  intros t d [<-|[<-|[<-|[]]]]; simpl; intros H; repeat (apply orb_true_iff in H; destruct H as [H|H]); apply Z.eqb_eq in H; lia.
Qed.

Print Assumptions C25_block_partition.
