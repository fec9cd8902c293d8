(** C69: the effective legs and leg rules of a fare computation. *)
From Coq Require Import List ZArith Lia Bool Arith.
From Coq Require Sorted.
From Verif Require Import Base Fares_Model.
Import ListNotations.
Local Open Scope Z_scope.

(** * Specification *)
(** Stop [s] is [p] or a child of [p]. *)
Definition at_stop (tt : ftt) (p s : nat) : Prop := p = s \/ ft_parent tt s = Some p.
Definition AllowsJoin (tt : ftt) (jr : join_rule) (a b : leg) : Prop :=
  l_net a = Some (jr_from_net jr) /\ l_net b = Some (jr_to_net jr) /\
  ((jr_from_stop jr = None /\ jr_to_stop jr = None) \/
   (exists p q, jr_from_stop jr = Some p /\ jr_to_stop jr = Some q /\ at_stop tt p (last_stop a) /\ at_stop tt q (first_stop b))).
(** Two legs that follow each other count as one: both are scheduled, from the same feed, and one of its join rules
    names their networks and, if it names stops, the stops of the transfer. *)
Definition Joinable (tt : ftt) (a b : leg) : Prop :=
  l_sched a = true /\ l_sched b = true /\ l_src a = l_src b /\
  exists jr, In jr (fs_joins (ft_fares tt (l_src a))) /\ AllowsJoin tt jr a b.

(** Area [x] of a stop: its own areas, or those of its parent if it has none. *)
Definition stop_area (tt : ftt) (s x : nat) : Prop :=
  In x (ft_areas tt s) \/ (ft_areas tt s = [] /\ exists p, ft_parent tt s = Some p /\ In x (ft_areas tt p)).
(** The area by which a leg enters the rules: one of the areas of the stop, or none. *)
Definition leg_area (tt : ftt) (s : nat) (a : option nat) : Prop :=
  match a with Some x => stop_area tt s x | None => forall x, ~ stop_area tt s x end.
(** A field of a rule against the leg's value: equal, or empty; an empty field of a feed without rule priorities means
    "everything that no rule names in this field". *)
Definition FieldOk (has_priority : bool) (rules : list leg_rule) (sel : leg_rule -> option nat) (r : leg_rule) (v : option nat) : Prop :=
  match sel r with
  | Some x => v = Some x
  | None => has_priority = true \/ match v with None => True | Some x => forall r', In r' rules -> sel r' <> Some x end
  end.
(** The zone of a stop: its own, otherwise the provider's. *)
Definition zone_of (tt : ftt) (stop tz : nat) : nat := match ft_stop_tz tt stop with Some z => z | None => tz end.
(** The local time lies in one of the timeframes of group [g] on a day of the timeframe's service. *)
Definition Covers (tt : ftt) (f : fares) (stop tz : nat) (time : Z) (g : nat) : Prop :=
  exists tf day, In tf (nth g (fs_frames f) []) /\
    let local := ft_local tt (zone_of tt stop tz) time in
    let base := ft_local tt (zone_of tt stop tz) (ft_first tt) / 1440 in
    day = local / 1440 - base /\ 0 <= day /\
    nth (Z.to_nat day) (tf_service tf) false = true /\
    tf_start tf <= local - local / 1440 * 1440 < tf_end tf.
Definition FirstCover (tt : ftt) (f : fares) (stop tz : nat) (time : Z) (g : nat) : Prop :=
  Covers tt f stop tz time g /\ forall g', (g' < g)%nat -> ~ Covers tt f stop tz time g'.
(** The area sets of a rule against the areas of all stops of the effective leg. *)
Definition leg_has (tt : ftt) (e : list leg) (x : nat) : Prop := exists l s, In l e /\ In s (l_stops l) /\ stop_area tt s x.
Definition SetsOk (tt : ftt) (f : fares) (e : list leg) (r : leg_rule) : Prop :=
  (forall s, lr_contains r = Some s -> forall x, In x (fs_sets f s) -> leg_has tt e x) /\
  (forall s, lr_exact r = Some s -> forall x, In x (fs_sets f s) <-> leg_has tt e x).
(** A leg rule applies to the effective leg [d :: e]; [Cov] is the relation for timeframe groups. *)
Definition Applies (Cov : ftt -> fares -> nat -> nat -> Z -> nat -> Prop) (tt : ftt) (f : fares) (hp : bool) (rules : list leg_rule)
  (d : leg) (e : list leg) (r : leg_rule) : Prop :=
  let b := last (d :: e) d in
  FieldOk hp rules lr_net r (if oeqb (l_net d) (l_net b) then l_net d else None) /\
  (exists a, leg_area tt (first_stop d) a /\ FieldOk hp rules lr_from r a) /\
  (exists a, leg_area tt (last_stop b) a /\ FieldOk hp rules lr_to r a) /\
  (forall g, lr_ftf r = Some g -> Cov tt f (first_stop d) (l_tz d) (l_fdep d) g) /\
  (forall g, lr_ttf r = Some g -> Cov tt f (last_stop b) (l_tz b) (l_farr b) g) /\
  SetsOk tt f (d :: e) r.

(** * Booleans *)
Lemma oeqb_eq a b : oeqb a b = true <-> a = b.
Proof. destruct a, b; cbn; try rewrite Nat.eqb_eq; split; congruence. Qed.
Lemma memb_in x l : memb x l = true <-> In x l.
Proof. unfold memb. rewrite existsb_exists. split; [intros (y & H & E); apply Nat.eqb_eq in E; now subst|intros H; exists x; split; [auto|apply Nat.eqb_refl]]. Qed.
Lemma key_eqb_eq a b : key_eqb a b = true <-> a = b.
Proof.
  unfold key_eqb. rewrite !andb_true_iff, !oeqb_eq. destruct a, b; cbn. split; [intros ((((-> & ->) & ->) & ->) & ->); reflexivity|intros [= -> -> -> -> ->]; auto].
Qed.
Lemma key_eqb_sym a b : key_eqb a b = key_eqb b a.
Proof. destruct (key_eqb a b) eqn:E, (key_eqb b a) eqn:E2; auto; [apply key_eqb_eq in E; subst; rewrite (proj2 (key_eqb_eq b b) eq_refl) in E2; congruence|apply key_eqb_eq in E2; subst; rewrite (proj2 (key_eqb_eq a a) eq_refl) in E; congruence]. Qed.

(** * Effective legs *)
Lemma is_stop_spec tt p s : is_stop (Some p) (parent_of tt s) s = true <-> at_stop tt p s.
Proof.
  cbn. rewrite orb_true_iff, !Nat.eqb_eq. unfold parent_of, at_stop. destruct (ft_parent tt s) as [q|]; split; intros [H|H]; subst; auto; try discriminate. injection H; auto.
Qed.
Lemma join_spec tt a b : join tt a b = true <-> (l_sched a = true /\ l_sched b = true /\ exists jr, In jr (fs_joins (ft_fares tt (l_src a))) /\ AllowsJoin tt jr a b).
Proof.
  unfold join. destruct (l_sched a), (l_sched b); cbn [negb orb]; [|split; [discriminate|now intros (_ & H & _)]|split; [discriminate|now intros (H & _)]|split; [discriminate|now intros (H & _)]].
  unfold AllowsJoin. destruct (l_net a) as [na|], (l_net b) as [nb|]; [|split; [discriminate|intros (_ & _ & jr & _ & _ & H & _); discriminate]|split; [discriminate|intros (_ & _ & jr & _ & H & _); discriminate]|split; [discriminate|intros (_ & _ & jr & _ & H & _); discriminate]].
  rewrite existsb_exists. split.
  - intros (jr & HI & H). apply andb_true_iff in H. destruct H as (H1 & H2). apply andb_true_iff in H1. destruct H1 as (E1 & E2). apply Nat.eqb_eq in E1, E2.
    split; [auto|]. split; [auto|]. exists jr. split; [auto|]. split; [congruence|]. split; [congruence|].
    apply orb_true_iff in H2. destruct H2 as [H2|H2].
    + left. destruct (jr_from_stop jr), (jr_to_stop jr); try discriminate. auto.
    + right. apply andb_true_iff in H2. destruct H2 as (H3 & H4). destruct (jr_from_stop jr) as [p|]; [|discriminate]. destruct (jr_to_stop jr) as [q|]; [|discriminate].
      exists p, q. repeat split; auto; now apply is_stop_spec.
  - intros (_ & _ & jr & HI & H1 & H2 & H). exists jr. split; [auto|]. injection H1 as E1. injection H2 as E2. rewrite <- E1, <- E2, !Nat.eqb_refl. cbn [andb].
    destruct H as [(-> & ->)|(p & q & -> & -> & H3 & H4)]; [reflexivity|]. rewrite (proj2 (is_stop_spec _ _ _) H3), (proj2 (is_stop_spec _ _ _) H4). apply orb_true_r.
Qed.
Section RangesFacts.
  Context {A : Type}.
  Variable eq : A -> A -> bool.
  Lemma span_spec p (l : list A) a b : span p l = (a, b) -> l = a ++ b /\ Forall (fun x => p x = true) a /\ match b with [] => True | y :: _ => p y = false end.
  Proof.
    revert a b. induction l as [|x t IH]; intros a b; cbn; [intros [= <- <-]; auto|]. destruct (p x) eqn:E.
    - destruct (span p t) as (a' & b') eqn:ES. intros [= <- <-]. destruct (IH _ _ eq_refl) as (-> & HF & HB). auto.
    - intros [= <- <-]. auto.
  Qed.
  Lemma ranges_concat n : forall l, (length l <= n)%nat -> concat (ranges eq n l) = l.
  Proof.
    induction n as [|n IH]; intros [|x t] H; cbn in *; try reflexivity; [lia|]. destruct (span (eq x) t) as (a & b) eqn:E. apply span_spec in E. destruct E as (-> & _).
    cbn. rewrite IH; [reflexivity|]. rewrite app_length in H. lia.
  Qed.
  Lemma ranges_in n : forall l r, In r (ranges eq n l) -> exists x t, r = x :: t /\ Forall (fun y => eq x y = true) t.
  Proof.
    induction n as [|n IH]; intros [|x t] r H; cbn in H; try contradiction. destruct (span (eq x) t) as (a & b) eqn:E. apply span_spec in E. destruct E as (_ & HF & _).
    destruct H as [<-|H]; [now exists x, a|eauto].
  Qed.
  (** The first element of a range differs from the first one of the next range. *)
  Fixpoint breaks (rs : list (list A)) : Prop :=
    match rs with
    | (x :: a) :: rest => match rest with (y :: _) :: _ => eq x y = false | _ => True end /\ breaks rest
    | _ => True
    end.
  Lemma ranges_breaks n : forall l, breaks (ranges eq n l).
  Proof.
    induction n as [|n IH]; intros [|x t]; cbn; auto. destruct (span (eq x) t) as (a & b) eqn:E. apply span_spec in E. destruct E as (_ & _ & HB).
    cbn. split; [|apply IH]. destruct n; cbn; [auto|]. destruct b as [|y b]; cbn; [auto|]. destruct (span (eq y) b). exact HB.
  Qed.
End RangesFacts.
Section Legs.
  Variable tt : ftt.
  Lemma join_range_concat l : forall cur pred, concat (join_range tt cur pred l) = rev cur ++ l.
  Proof. induction l as [|x t IH]; intros cur pred; cbn; [reflexivity|]. destruct (join tt pred x); cbn; rewrite IH; cbn; [now rewrite <- app_assoc|reflexivity]. Qed.
  Lemma join_legs_concat legs : concat (join_legs tt legs) = legs.
  Proof.
    unfold join_legs, equal_ranges. assert (H : forall rs, concat (flat_map (fun r => match r with [] => [] | x :: t => join_range tt [x] x t end) rs) = concat rs).
    { induction rs as [|r rs IH]; cbn; [reflexivity|]. rewrite concat_app, IH. f_equal. destruct r as [|x t]; [reflexivity|apply join_range_concat]. }
    rewrite H. now apply ranges_concat.
  Qed.
  (** All consecutive pairs of a list satisfy [R]. *)
  Fixpoint chain {A : Type} (R : A -> A -> Prop) (l : list A) : Prop :=
    match l with x :: t => match t with y :: _ => R x y | [] => True end /\ chain R t | [] => True end.
  Lemma chain_snoc {A : Type} (R : A -> A -> Prop) l x y : chain R (l ++ [x]) -> R x y -> chain R (l ++ [x; y]).
  Proof.
    induction l as [|a l IH]; cbn; [intros _ H; auto|]. intros (H1 & H2) H. split; [|auto]. destruct l; cbn in *; auto.
  Qed.
  Definition J a b := join tt a b = true.

  (** No two neighbouring pieces could have been joined. *)
  Fixpoint bnd (gs : list (list leg)) : Prop :=
    match gs with
    | g :: rest => match rest with g2 :: _ => ~ Joinable tt (last g dleg) (hd dleg g2) | [] => True end /\ bnd rest
    | [] => True
    end.
  Definition full (gs : list (list leg)) : Prop := Forall (fun g => g <> []) gs.
  Lemma hd_concat gs : full gs -> hd dleg (concat gs) = hd dleg (hd [] gs).
  Proof. intros H. destruct H as [|g gs H _]; [reflexivity|]. destruct g; [congruence|reflexivity]. Qed.
  Lemma last_app_ne {A : Type} (a b : list A) d : b <> [] -> last (a ++ b) d = last b d.
  Proof. intros H. destruct (exists_last H) as (b' & x & ->). rewrite app_assoc, !last_last. reflexivity. Qed.
  Lemma concat_ne gs : full gs -> gs <> [] -> concat gs <> [].
  Proof. intros H HN. destruct H as [|g gs H _]; [congruence|]. cbn. intros E. apply app_eq_nil in E. tauto. Qed.
  Lemma bnd_app g1 g2 : full g1 -> full g2 -> bnd g1 -> bnd g2 ->
    (g1 = [] \/ g2 = [] \/ ~ Joinable tt (last (concat g1) dleg) (hd dleg (concat g2))) -> bnd (g1 ++ g2).
  Proof.
    intros H1 H2. induction H1 as [|g g1 HG H1 IH]; cbn [app bnd]; [auto|]. intros (B1 & B2) B3 HJ. split.
    - destruct g1 as [|h g1]; cbn; [|exact B1]. destruct HJ as [HJ|[->|HJ]]; [discriminate|auto|]. rewrite hd_concat in HJ by auto. cbn in HJ. rewrite app_nil_r in HJ.
      destruct g2; auto.
    - apply IH; auto. destruct g1 as [|h g1]; [auto|]. destruct HJ as [HJ|[HJ|HJ]]; [discriminate|auto|]. right. right. change (concat (g :: h :: g1)) with (g ++ concat (h :: g1)) in HJ. rewrite last_app_ne in HJ; [exact HJ|]. apply concat_ne; [auto|discriminate].
  Qed.
  Lemma join_range_ne t x pre : join_range tt (x :: pre) x t <> [].
  Proof. revert x pre. induction t as [|z t IHt]; intros x pre; cbn; [discriminate|]. destruct (join tt x z); [apply IHt|discriminate]. Qed.
  Lemma join_range_spec l : forall pre pred, chain J (rev pre ++ [pred]) -> (forall x, In x l -> l_src x = l_src pred) ->
    Forall (fun g => g <> [] /\ chain J g) (join_range tt (pred :: pre) pred l) /\ bnd (join_range tt (pred :: pre) pred l).
  Proof.
    induction l as [|x t IH]; intros pre pred HC HS; cbn [join_range].
    - split; [constructor; [|constructor]|cbn; auto]. cbn. split; [intros E; now apply app_eq_nil in E|exact HC].
    - assert (HS2 : forall y, In y t -> l_src y = l_src x).
      { intros y HI. rewrite (HS y) by now right. symmetry. apply HS. now left. }
      destruct (join tt pred x) eqn:E.
      + apply IH; [|auto]. cbn. rewrite <- app_assoc. now apply chain_snoc.
      + destruct (IH [] x) as (H1 & H2); [cbn; auto|auto|]. split; [constructor; [cbn; split; [intros E'; now apply app_eq_nil in E'|exact HC]|exact H1]|].
        cbn [bnd]. split; [|exact H2]. pose proof (join_range_concat t [x] x) as HC2. destruct (join_range tt [x] x t) as [|g gs] eqn:EJ; [auto|].
        cbn [rev]. rewrite last_last. intros (S1 & S2 & _ & S3). assert (HH : hd dleg g = x).
        { inversion H1 as [|? ? (Hne & _) _]; subst. destruct g as [|y g]; [congruence|]. cbn in HC2. injection HC2 as <- _. reflexivity. }
        rewrite HH in *. assert (X : join tt pred x = true) by (apply join_spec; auto). congruence.
  Qed.
  Lemma equal_src_src x y : l_sched x = true -> l_sched y = true -> equal_src x y = Nat.eqb (l_src x) (l_src y).
  Proof. intros H1 H2. unfold equal_src. now rewrite H1, H2. Qed.
  Lemma NoDup_app_r {A : Type} (a b : list A) : NoDup (a ++ b) -> NoDup b.
  Proof. induction a as [|x a IH]; cbn; [auto|]. intros H. inversion H; auto. Qed.
  (** One range: unscheduled legs are alone. *)
  Lemma range_alone x t : NoDup (map l_id (x :: t)) -> Forall (fun y => equal_src x y = true) t -> t <> [] ->
    l_sched x = true /\ forall y, In y t -> l_sched y = true /\ l_src y = l_src x.
  Proof.
    intros HN HF HT. rewrite Forall_forall in HF. cbn in HN. inversion HN as [|? ? HNI _]; subst.
    assert (K : forall y, In y t -> l_sched x = true /\ l_sched y = true /\ l_src y = l_src x).
    { intros y HI. specialize (HF y HI). unfold equal_src in HF. destruct (l_sched x) eqn:E1, (l_sched y) eqn:E2; cbn in HF; apply Nat.eqb_eq in HF; auto; exfalso; apply HNI; rewrite HF; now apply in_map. }
    destruct t as [|y t]; [congruence|]. split; [apply (K y); now left|]. intros z HI. apply (K z HI).
  Qed.
  Definition piece (r : list leg) : list (list leg) := match r with [] => [] | x :: t => join_range tt [x] x t end.
  Lemma pieces_spec n : forall legs, (length legs <= n)%nat -> NoDup (map l_id legs) ->
    let gs := flat_map piece (ranges equal_src n legs) in Forall (fun g => g <> [] /\ chain J g) gs /\ bnd gs.
  Proof.
    induction n as [|n IH]; intros [|x t] HL HN.
    1, 3: (cbn; split; [apply Forall_nil|exact I]).
    { cbn in HL. lia. }
    cbn -[piece] in *.
    destruct (span (equal_src x) t) as (a & b) eqn:ES. apply span_spec in ES. destruct ES as (-> & HF & HB). cbn [flat_map].
    change (NoDup (map l_id (x :: a ++ b))) in HN.
    assert (HN1 : NoDup (map l_id (x :: a))). { clear -HN. change (x :: a ++ b) with ((x :: a) ++ b) in HN. rewrite map_app in HN. revert HN. generalize (map l_id (x :: a)) (map l_id b). intros u v. induction u as [|z u IHu]; cbn; intros H; [constructor|]. inversion H; subst. constructor; [intros HI; apply H2; apply in_or_app; auto|auto]. }
    assert (HN2 : NoDup (map l_id b)). { change (x :: a ++ b) with ((x :: a) ++ b) in HN. rewrite map_app in HN. eapply NoDup_app_r. exact HN. }
    assert (HLb : (length b <= n)%nat) by (rewrite app_length in HL; lia).
    specialize (IH b HLb HN2). cbv zeta in IH. destruct IH as (I1 & I2).
    assert (HSrc : forall y, In y a -> l_src y = l_src x). { intros y HI. destruct a as [|z a]; [contradiction|]. destruct (range_alone x (z :: a) HN1 HF) as (_ & K); [discriminate|]. now apply K. }
    destruct (join_range_spec a [] x (conj I I) HSrc) as (P1 & P2).
    split; [apply Forall_app; auto|]. apply bnd_app; auto.
    - eapply Forall_impl; [|exact P1]. now intros g (H & _).
    - eapply Forall_impl; [|exact I1]. now intros g (H & _).
    - right. assert (EC : concat (flat_map piece (ranges equal_src n b)) = b).
      { clear -HLb. rewrite <- (ranges_concat equal_src n b) at 2 by auto. generalize (ranges equal_src n b). intros rs. induction rs as [|r rs IHr]; cbn -[piece]; [reflexivity|]. rewrite concat_app, IHr. f_equal. destruct r as [|z r]; [reflexivity|]. apply join_range_concat. }
      rewrite EC. destruct b as [|y b].
      + left. destruct n; reflexivity.
      + right. cbn [hd]. unfold piece. rewrite join_range_concat. cbn [rev app]. intros (S1 & S2 & S3 & _).
        assert (X : equal_src x y = true); [|congruence].
        destruct a as [|z a].
        * cbn in S1, S3. rewrite equal_src_src by auto. now apply Nat.eqb_eq.
        * destruct (range_alone x (z :: a) HN1 HF) as (K1 & K2); [discriminate|]. rewrite equal_src_src by auto. apply Nat.eqb_eq. rewrite <- S3. symmetry.
          change (last (x :: z :: a) dleg) with (last (z :: a) dleg). assert (HI : In (last (z :: a) dleg) (z :: a)).
          { destruct (@exists_last _ (z :: a)) as (q & w & EQ); [discriminate|]. rewrite EQ, last_last. apply in_or_app. right. now left. }
          now apply K2.
  Qed.
End Legs.

(** Nothing is lost or reordered: the effective legs, concatenated, are the transit legs. *)
Theorem C69_legs_partition tt legs : concat (join_legs tt legs) = legs.
Proof. apply join_legs_concat. Qed.
(** The legs of one effective leg follow each other by join rules... *)
Theorem C69_legs_joined tt legs e p a b q : NoDup (map l_id legs) -> In e (join_legs tt legs) -> e = p ++ a :: b :: q ->
  (exists u v, legs = u ++ a :: b :: v) /\ l_sched a = true /\ l_sched b = true /\
  exists jr, In jr (fs_joins (ft_fares tt (l_src a))) /\ AllowsJoin tt jr a b.
Proof.
  intros HN HI HE. destruct (pieces_spec tt (length legs) legs (le_n _) HN) as (HF & _). rewrite Forall_forall in HF.
  destruct (HF e HI) as (_ & HC). split.
  - apply in_split in HI. destruct HI as (u & v & EQ). exists (concat u ++ p), (q ++ concat v). rewrite <- (C69_legs_partition tt legs), EQ, concat_app. cbn [concat]. rewrite HE, <- !app_assoc. cbn. reflexivity.
  - subst e. assert (HJ : join tt a b = true). { clear -HC. induction p as [|x p IH]; cbn in HC; [tauto|]. apply IH. tauto. } apply join_spec in HJ. tauto.
Qed.
(** ... and no effective leg ends where its last leg could have been joined with the first leg of the next one. *)
Theorem C69_legs_split tt legs p e1 e2 q : NoDup (map l_id legs) -> join_legs tt legs = p ++ e1 :: e2 :: q ->
  e1 <> [] /\ e2 <> [] /\ ~ Joinable tt (last e1 dleg) (hd dleg e2).
Proof.
  intros HN HE. destruct (pieces_spec tt (length legs) legs (le_n _) HN) as (HF & HB). change (flat_map (piece tt) (ranges equal_src (length legs) legs)) with (join_legs tt legs) in *.
  rewrite HE in HF, HB. split; [|split].
  - rewrite Forall_forall in HF. apply (HF e1). apply in_or_app. right. now left.
  - rewrite Forall_forall in HF. apply (HF e2). apply in_or_app. right. right. now left.
  - clear -HB. induction p as [|x p IH]; cbn in HB; [tauto|]. apply IH. tauto.
Qed.

(** * The rule table *)
Definition group_at (s : list (rule_key * nat) * list (list leg_rule)) (k : rule_key) : list leg_rule :=
  match find_key (fst s) k with Some i => nth i (snd s) [] | None => [] end.
Definition table_ok (s : list (rule_key * nat) * list (list leg_rule)) : Prop :=
  (forall k i, find_key (fst s) k = Some i -> (i < length (snd s))%nat) /\
  (forall k1 k2 i, find_key (fst s) k1 = Some i -> find_key (fst s) k2 = Some i -> k1 = k2).
Lemma find_key_app ks k0 i k : find_key (ks ++ [(k0, i)]) k = match find_key ks k with Some j => Some j | None => if key_eqb k0 k then Some i else None end.
Proof. unfold find_key. induction ks as [|(k1, j) ks IH]; cbn; [destruct (key_eqb k0 k); reflexivity|]. destruct (key_eqb k1 k); [reflexivity|exact IH]. Qed.
Lemma push_at_nth l i r j : (i < length l)%nat -> nth j (push_at l i r) [] = if Nat.eqb i j then nth j l [] ++ [r] else nth j l [].
Proof.
  intros H. unfold push_at. destruct (Nat.eqb_spec i j) as [<-|N].
  - rewrite app_nth2; rewrite firstn_length_le by lia; [|lia]. now rewrite Nat.sub_diag.
  - destruct (Nat.lt_ge_cases j i) as [L|L].
    + rewrite app_nth1 by (rewrite firstn_length_le; lia). rewrite <- (firstn_skipn i l) at 2. now rewrite app_nth1 by (rewrite firstn_length_le; lia).
    + rewrite app_nth2; rewrite firstn_length_le by lia; [|lia]. destruct (j - i)%nat as [|d] eqn:E; [lia|]. cbn.
      assert (EQ : l = firstn (S i) l ++ skipn (S i) l) by (symmetry; apply firstn_skipn). rewrite EQ at 2. rewrite app_nth2; rewrite firstn_length_le by lia; [|lia]. f_equal. lia.
Qed.
Lemma push_at_length l i r : (i < length l)%nat -> length (push_at l i r) = length l.
Proof. intros H. unfold push_at. rewrite app_length, firstn_length_le by lia. cbn [length]. rewrite skipn_length. lia. Qed.
Lemma nth_app_nil (gs : list (list leg_rule)) j : nth j (gs ++ [[]]) [] = nth j gs [].
Proof. destruct (Nat.lt_ge_cases j (length gs)); [now rewrite app_nth1|]. rewrite app_nth2 by auto. rewrite (nth_overflow gs) by auto. destruct (j - length gs)%nat as [|[|?]]; reflexivity. Qed.
Lemma add_rule_spec s r : table_ok s -> table_ok (add_rule s r) /\
  forall k, group_at (add_rule s r) k = group_at s k ++ (if key_eqb (key_of r) k then [r] else []).
Proof.
  intros (T1 & T2). destruct s as (ks, gs). unfold add_rule, group_at, table_ok in *. cbn [fst snd] in *. destruct (find_key ks (key_of r)) as [i|] eqn:E; cbn [fst snd].
  - pose proof (T1 _ _ E) as Hi. split; [split; [intros k j H; rewrite push_at_length by auto; eauto|exact T2]|]. intros k.
    destruct (key_eqb (key_of r) k) eqn:EK.
    + apply key_eqb_eq in EK. subst k. rewrite E. rewrite push_at_nth by auto. now rewrite Nat.eqb_refl.
    + rewrite app_nil_r. destruct (find_key ks k) as [j|] eqn:Ej; [|reflexivity]. rewrite push_at_nth by auto. destruct (Nat.eqb_spec i j) as [<-|]; [|reflexivity].
      rewrite (T2 _ _ _ E Ej) in EK. rewrite (proj2 (key_eqb_eq k k) eq_refl) in EK. discriminate.
  - assert (HL : (length gs < length (gs ++ [[]]))%nat) by (rewrite app_length; cbn; lia). split.
    + split.
      * intros k j. rewrite find_key_app, push_at_length by auto. rewrite app_length. cbn. destruct (find_key ks k) as [j'|] eqn:Ej; [intros [= <-]; specialize (T1 _ _ Ej); lia|]. destruct (key_eqb (key_of r) k); intros [= <-]. lia.
      * intros k1 k2 j. rewrite !find_key_app. destruct (find_key ks k1) as [j1|] eqn:E1, (find_key ks k2) as [j2|] eqn:E2.
        { intros [= ->] [= ->]. eapply T2; eauto. }
        { intros [= ->]. destruct (key_eqb (key_of r) k2); [|discriminate]. intros [= <-]. specialize (T1 _ _ E1). lia. }
        { destruct (key_eqb (key_of r) k1); [|discriminate]. intros [= <-] [= ->]. specialize (T1 _ _ E2). lia. }
        { destruct (key_eqb (key_of r) k1) eqn:K1; [|discriminate]. destruct (key_eqb (key_of r) k2) eqn:K2; [|discriminate]. intros _ _. apply key_eqb_eq in K1, K2. congruence. }
    + intros k. rewrite find_key_app. destruct (find_key ks k) as [j|] eqn:Ej.
      * rewrite push_at_nth by auto. specialize (T1 _ _ Ej). destruct (Nat.eqb_spec (length gs) j); [lia|]. rewrite nth_app_nil.
        destruct (key_eqb (key_of r) k) eqn:EK; [apply key_eqb_eq in EK; subst; congruence|]. now rewrite app_nil_r.
      * destruct (key_eqb (key_of r) k); [|reflexivity]. rewrite push_at_nth by auto. rewrite Nat.eqb_refl, nth_app_nil. now rewrite nth_overflow by lia.
Qed.
Lemma load_groups_spec rules k : group_at (load_groups rules) k = filter (fun r => key_eqb (key_of r) k) rules.
Proof.
  assert (H : forall s, table_ok s -> forall k, group_at (fold_left add_rule rules s) k = group_at s k ++ filter (fun r => key_eqb (key_of r) k) rules).
  { induction rules as [|r rules IH]; intros s T k0; cbn; [now rewrite app_nil_r|]. destruct (add_rule_spec s r T) as (T2 & E). rewrite IH, E by auto. rewrite <- app_assoc. f_equal. destruct (key_eqb (key_of r) k0); reflexivity. }
  unfold load_groups. rewrite H; [reflexivity|]. split; cbn; discriminate.
Qed.
Lemma rules_of_load f hp rules k r : In r (rules_of (load_rules f hp rules) k) <-> In r rules /\ key_of r = k.
Proof.
  unfold rules_of, load_rules. pose proof (load_groups_spec rules k) as H. unfold group_at in H. destruct (load_groups rules) as (ks, gs). cbn [fs_keys fs_groups fst snd] in *. rewrite H, filter_In, key_eqb_eq. reflexivity.
Qed.

(** * Matching *)
Lemma somes_in l x : In x (somes l) <-> In (Some x) l.
Proof.
  unfold somes. rewrite in_flat_map. split.
  - intros ([y|] & HI & H); [|contradiction]. destruct H as [<-|[]]. exact HI.
  - intros H. exists (Some x). split; [auto|now left].
Qed.
Lemma opts_spec (hp : bool) rules sel (r : leg_rule) v :
  In (sel r) (opts v (if hp then [] else somes (map sel rules))) <-> FieldOk hp rules sel r v.
Proof.
  unfold opts, FieldOk. destruct v as [x|].
  - destruct (memb x (if hp then [] else somes (map sel rules))) eqn:E.
    + destruct hp; [discriminate|]. apply memb_in in E. apply somes_in, in_map_iff in E. destruct E as (r' & E & HI). cbn. destruct (sel r) as [y|]; split.
      * intros [H|[]]. exact H.
      * auto.
      * intros [H|[]]. discriminate.
      * intros [H|H]; [discriminate|]. exfalso. now apply (H r').
    + cbn. destruct (sel r) as [y|]; split; auto.
      * intros [H|[H|[]]]; [exact H|discriminate].
      * intros _. destruct hp; [now left|]. right. intros r' HI E'. assert (X : memb x (somes (map sel rules)) = true); [|congruence]. apply memb_in, somes_in. rewrite <- E'. now apply in_map.
  - cbn. destruct (sel r) as [y|]; (split; intros H; [try (destruct H as [H|[]]; discriminate); auto|try discriminate; auto]).
Qed.
Lemma stop_area_spec tt s x : In x (areas_of tt s) <-> stop_area tt s x.
Proof.
  unfold areas_of, stop_area, parent_of. destruct (ft_areas tt s) as [|a t] eqn:E.
  - destruct (ft_parent tt s) as [p|]; split.
    + intros H. right. split; [auto|]. now exists p.
    + intros [[]|(_ & q & [= <-] & H)]. exact H.
    + rewrite E. intros [].
    + intros [[]|(_ & q & H & _)]. discriminate.
  - split; [now left|]. intros [H|(H & _)]; [exact H|discriminate].
Qed.
Lemma area_opts_spec tt s a : In a (area_opts tt s) <-> leg_area tt s a.
Proof.
  unfold area_opts, leg_area. destruct (areas_of tt s) as [|x t] eqn:E.
  - cbn. split.
    + intros [<-|[]]. intros y HY. apply stop_area_spec in HY. now rewrite E in HY.
    + destruct a as [y|]; [|auto]. intros HY. apply stop_area_spec in HY. now rewrite E in HY.
  - rewrite <- E. destruct a as [y|].
    + rewrite in_map_iff, <- stop_area_spec. split; [intros (z & [= <-] & H); exact H|intros H; now exists y].
    + split; [rewrite in_map_iff; intros (z & H & _); discriminate|]. intros H. exfalso. apply (H x), stop_area_spec. rewrite E. now left.
Qed.
Lemma in_frame_spec tt f stop tz time g : existsb (in_frame tt (frame_tz tt stop tz) time) (nth g (fs_frames f) []) = true <-> Covers tt f stop tz time g.
Proof.
  change (frame_tz tt stop tz) with (zone_of tt stop tz). unfold Covers. rewrite existsb_exists. unfold in_frame. split.
  - intros (tf & HI & H). rewrite !andb_true_iff, !Z.leb_le, Z.ltb_lt in H. eexists tf, _. split; [exact HI|]. cbv zeta. split; [reflexivity|]. repeat split; try tauto; lia.
  - intros (tf & day & HI & -> & H0 & HS & H). exists tf. split; [exact HI|]. rewrite !andb_true_iff, !Z.leb_le, Z.ltb_lt. repeat split; try assumption; lia.
Qed.
Lemma first_frame_spec tt f stop tz time g : match_timeframe tt f stop tz time = Some g <-> FirstCover tt f stop tz time g.
Proof.
  unfold match_timeframe, FirstCover. set (z := frame_tz tt stop tz).
  assert (H : forall fr i g, first_frame tt z time i fr = Some g <-> (exists j, g = (i + j)%nat /\ existsb (in_frame tt z time) (nth j fr []) = true /\ forall j', (j' < j)%nat -> existsb (in_frame tt z time) (nth j' fr []) = false)).
  { clear. induction fr as [|x fr IH]; intros i g; cbn [first_frame].
    - split; [discriminate|]. intros (j & _ & H & _). destruct j; discriminate.
    - destruct (existsb (in_frame tt z time) x) eqn:E.
      + split.
        * intros [= <-]. exists O. split; [lia|]. split; [exact E|]. intros; lia.
        * intros (j & -> & _ & H). destruct j as [|j]; [f_equal; lia|]. specialize (H O (Nat.lt_0_succ _)). cbn in H. congruence.
      + rewrite IH. split.
        * intros (j & -> & H1 & H2). exists (S j). split; [lia|]. split; [exact H1|]. intros [|j'] L; [exact E|]. apply H2. lia.
        * intros (j & -> & H1 & H2). destruct j as [|j]; [cbn in H1; congruence|]. exists j. split; [lia|]. split; [exact H1|]. intros j' L. apply (H2 (S j')). lia. }
  rewrite H. subst z. split.
  - intros (j & -> & H1 & H2). cbn [Nat.add]. split; [now apply in_frame_spec|]. intros g' L HC. apply in_frame_spec in HC. rewrite H2 in HC by auto. discriminate.
  - intros (H1 & H2). exists g. split; [reflexivity|]. split; [now apply in_frame_spec|]. intros j' L. specialize (H2 j' L). rewrite <- in_frame_spec in H2. now apply not_true_is_false.
Qed.
Lemma tf_opts_spec (v : option nat) o : In o (tf_opts v) <-> (forall g, o = Some g -> v = Some g).
Proof.
  unfold tf_opts. destruct v as [x|]; cbn; split.
  - intros [<-|[<-|[]]] g; [auto|discriminate].
  - intros H. destruct o as [g|]; [left; now apply H|right; now left].
  - intros [<-|[]] g. discriminate.
  - intros H. destruct o as [g|]; [specialize (H g eq_refl); discriminate|now left].
Qed.
Lemma has_area_spec tt e x : has_area tt e x = true <-> leg_has tt e x.
Proof.
  unfold has_area, leg_has, all_stops. rewrite existsb_exists. split.
  - intros (s & HI & H). apply in_flat_map in HI. destruct HI as (l & H1 & H2). exists l, s. split; [auto|]. split; [auto|]. now apply stop_area_spec, memb_in.
  - intros (l & s & H1 & H2 & H3). exists s. split; [apply in_flat_map; eauto|]. now apply memb_in, stop_area_spec.
Qed.
Lemma has_other_spec tt e xs : has_other_area tt e xs = false <-> (forall x, leg_has tt e x -> In x xs).
Proof.
  rewrite <- not_true_iff_false. unfold has_other_area, leg_has, all_stops. rewrite existsb_exists. split.
  - intros H x (l & s & H1 & H2 & H3). destruct (memb x xs) eqn:E; [now apply memb_in|]. exfalso. apply H. exists s. split; [apply in_flat_map; eauto|].
    apply existsb_exists. exists x. split; [now apply stop_area_spec|]. now rewrite E.
  - intros H (s & HI & HS). apply in_flat_map in HI. destruct HI as (l & H1 & H2). apply existsb_exists in HS. destruct HS as (x & HX & HN). apply negb_true_iff in HN.
    assert (X : memb x xs = true); [|congruence]. apply memb_in, H. exists l, s. split; [auto|]. split; [auto|]. now apply stop_area_spec.
Qed.
Lemma area_sets_spec tt f e r : area_set_matches tt f e r = true <-> SetsOk tt f e r.
Proof.
  unfold area_set_matches, SetsOk. rewrite andb_true_iff. split.
  - intros (H1 & H2). split.
    + intros s E x HI. rewrite E, forallb_forall in H1. now apply has_area_spec, H1.
    + intros s E x. rewrite E in H2. apply andb_true_iff in H2. destruct H2 as (H2 & H3). apply negb_true_iff in H3. split.
      * intros HI. rewrite forallb_forall in H2. now apply has_area_spec, H2.
      * now apply has_other_spec.
  - intros (H1 & H2). split.
    + destruct (lr_contains r) as [s|]; [|reflexivity]. apply forallb_forall. intros x HI. apply has_area_spec. eapply H1; eauto.
    + destruct (lr_exact r) as [s|]; [|reflexivity]. apply andb_true_iff. split.
      * apply forallb_forall. intros x HI. apply has_area_spec. now apply (H2 s eq_refl).
      * apply negb_true_iff, has_other_spec. intros x. apply (H2 s eq_refl).
Qed.
Lemma candidates_spec tt f0 hp rules d e r : let f := load_rules f0 hp rules in
  In r (candidates tt f (d :: e) d) <-> In r rules /\ Applies FirstCover tt f hp rules d e r.
Proof.
  cbv zeta. set (f := load_rules f0 hp rules).
  assert (EN : fs_cnets f = if hp then [] else somes (map lr_net rules)) by (subst f; unfold load_rules; destruct (load_groups rules); reflexivity).
  assert (EF : fs_cfroms f = if hp then [] else somes (map lr_from rules)) by (subst f; unfold load_rules; destruct (load_groups rules); reflexivity).
  assert (ET : fs_ctos f = if hp then [] else somes (map lr_to rules)) by (subst f; unfold load_rules; destruct (load_groups rules); reflexivity).
  unfold candidates, Applies, leg_net. rewrite EN, EF, ET. clear EN EF ET. cbn [hd].
  set (b := last (d :: e) d). split.
  - intros H. apply in_flat_map in H. destruct H as (fa0 & A1 & H). apply in_flat_map in H. destruct H as (ta0 & A2 & H). apply in_flat_map in H. destruct H as (nw & A3 & H).
    apply in_flat_map in H. destruct H as (fa & A4 & H). apply in_flat_map in H. destruct H as (ta & A5 & H). apply in_flat_map in H. destruct H as (ftg & A6 & H).
    apply in_flat_map in H. destruct H as (ttg & A7 & H). apply filter_In in H. destruct H as (H & HS). apply rules_of_load in H. destruct H as (HI & HK). unfold key_of in HK. injection HK as <- <- <- <- <-.
    split; [exact HI|]. split; [now apply opts_spec|]. split; [exists fa0; split; [now apply area_opts_spec|now apply opts_spec]|]. split; [exists ta0; split; [now apply area_opts_spec|now apply opts_spec]|].
    split; [|split].
    + intros g E. apply first_frame_spec. now apply (proj1 (tf_opts_spec _ _) A6).
    + intros g E. apply first_frame_spec. now apply (proj1 (tf_opts_spec _ _) A7).
    + now apply area_sets_spec.
  - intros (HI & H1 & (fa & H2 & H3) & (ta & H4 & H5) & H6 & H7 & H8). apply in_flat_map. exists fa. split; [now apply area_opts_spec|]. apply in_flat_map. exists ta. split; [now apply area_opts_spec|].
    apply in_flat_map. exists (lr_net r). split; [now apply opts_spec|]. apply in_flat_map. exists (lr_from r). split; [now apply opts_spec|]. apply in_flat_map. exists (lr_to r). split; [now apply opts_spec|].
    apply in_flat_map. exists (lr_ftf r). split; [apply tf_opts_spec; intros g E; now apply first_frame_spec, H6|]. apply in_flat_map. exists (lr_ttf r). split; [apply tf_opts_spec; intros g E; now apply first_frame_spec, H7|].
    apply filter_In. split; [apply rules_of_load; split; [auto|reflexivity]|now apply area_sets_spec].
Qed.

(** * Sorting *)
Lemma insert_in f r l x : In x (insert f r l) <-> x = r \/ In x l.
Proof.
  induction l as [|y t IH]; [cbn; split; intros [H|H]; auto|]. cbn [insert]. destruct (lexlt (sort_key f y) (sort_key f r)); cbn [In]; rewrite ?IH; intuition congruence.
Qed.
Lemma sort_in f l x : In x (sort_rules f l) <-> In x l.
Proof. induction l as [|y t IH]; cbn; [reflexivity|]. rewrite insert_in, IH. split; intros [H|H]; auto. Qed.
Definition below (f : fares) (a b : leg_rule) : Prop := lexlt (sort_key f b) (sort_key f a) = false.
Lemma lexlt_trans : forall a b c, length a = length b -> length b = length c -> lexlt b a = false -> lexlt c b = false -> lexlt c a = false.
Proof.
  induction a as [|x a IH]; intros [|y b] [|z c] L1 L2; cbn in *; try discriminate; auto. rewrite !orb_false_iff, !andb_false_iff, !Z.ltb_ge, !Z.eqb_neq.
  intros (H1 & H2) (H3 & H4). split; [lia|]. destruct (Z.eq_dec z x) as [->|N]; [|now left]. right. assert (x = y) by lia. subst y. eapply (IH b c); [lia|lia| |]; [destruct H2|destruct H4]; auto; contradiction.
Qed.
Lemma lexlt_asym : forall a b, length a = length b -> lexlt a b = true -> lexlt b a = false.
Proof.
  induction a as [|x a IH]; intros [|y b] L; cbn in *; try discriminate. rewrite orb_true_iff, orb_false_iff, andb_true_iff, andb_false_iff, Z.ltb_lt, Z.ltb_ge, Z.eqb_eq, Z.eqb_neq.
  intros [H|(-> & H)]; [split; [lia|left; lia]|]. split; [lia|]. right. apply IH; auto.
Qed.
Lemma insert_sorted f r l : Sorted.StronglySorted (below f) l -> Sorted.StronglySorted (below f) (insert f r l).
Proof.
  induction l as [|y t IH]; intros HS; [repeat constructor|]. inversion HS as [|? ? HS2 HF]; subst. cbn [insert]. rewrite Forall_forall in HF.
  destruct (lexlt (sort_key f y) (sort_key f r)) eqn:E.
  - constructor; [auto|]. apply Forall_forall. intros z HI. apply insert_in in HI. destruct HI as [-> | HI]; [|auto]. unfold below. apply lexlt_asym; auto.
  - constructor; [constructor; auto; now apply Forall_forall|]. constructor; [exact E|]. apply Forall_forall. intros z HI. specialize (HF z HI). unfold below in *. eapply lexlt_trans; [| |exact E|exact HF]; reflexivity.
Qed.
Lemma sort_sorted f l : Sorted.StronglySorted (below f) (sort_rules f l).
Proof. induction l as [|r l IH]; cbn; [constructor|now apply insert_sorted]. Qed.
Lemma below_prio f a b : below f a b -> lr_prio b <= lr_prio a.
Proof. unfold below. cbn. rewrite orb_false_iff, Z.ltb_ge. lia. Qed.
Lemma SS_filter {A : Type} (R : A -> A -> Prop) p l : Sorted.StronglySorted R l -> Sorted.StronglySorted R (filter p l).
Proof.
  induction 1 as [|x l HS IH HF]; cbn; [constructor|]. destruct (p x); [|exact IH]. constructor; [exact IH|]. rewrite Forall_forall in *. intros y HI. apply filter_In in HI. apply HF. tauto.
Qed.

(** * The rules of an effective leg *)
(** Exactly the applicable rules of the feed's fare_leg_rules that no applicable rule beats in priority. *)
Theorem C69_rules_iff tt f0 hp rules d e r : l_sched d = true -> l_sched (last (d :: e) d) = true ->
  ft_fares tt (l_src d) = load_rules f0 hp rules ->
  fst (match_leg_rule tt (d :: e)) = l_src d /\
  (In r (snd (match_leg_rule tt (d :: e))) <->
   In r rules /\ Applies FirstCover tt (load_rules f0 hp rules) hp rules d e r /\
   forall r', In r' rules -> Applies FirstCover tt (load_rules f0 hp rules) hp rules d e r' -> lr_prio r' <= lr_prio r).
Proof.
  intros S1 S2 HF. unfold match_leg_rule. rewrite S1, S2, HF. cbn [negb orb fst snd]. split; [reflexivity|].
  pose proof (fun r => candidates_spec tt f0 hp rules d e r) as HC. cbv zeta in HC. set (f := load_rules f0 hp rules) in *. set (cs := candidates tt f (d :: e) d) in *.
  pose proof (sort_sorted f cs) as HS. pose proof (sort_in f cs) as HI. destruct (sort_rules f cs) as [|x l] eqn:E.
  - cbn. split; [contradiction|]. intros (H1 & H2 & _). apply (HI r), HC. auto.
  - cbn [keep_best]. rewrite filter_In, HI, HC, negb_true_iff, Z.ltb_ge.
    assert (HX : forall y, In y cs -> lr_prio y <= lr_prio x).
    { intros y HY. apply HI in HY. destruct HY as [-> |HY]; [lia|]. inversion HS as [|? ? _ HF2]; subst. rewrite Forall_forall in HF2. apply (below_prio f). auto. }
    split.
    + intros ((H1 & H2) & H3). split; [auto|]. split; [auto|]. intros r' R1 R2. assert (lr_prio r' <= lr_prio x) by (apply HX, HC; auto). lia.
    + intros (H1 & H2 & H3). split; [auto|]. assert (HXI : In x cs) by (apply HI; now left). apply HC in HXI. apply H3; tauto.
Qed.
(** Sorted: priority, default rider category first, rider category, amount, name; the first rule is the one
    transfer rules look at. *)
Theorem C69_rules_sorted tt d e : l_sched d = true -> l_sched (last (d :: e) d) = true ->
  Sorted.StronglySorted (below (ft_fares tt (l_src d))) (snd (match_leg_rule tt (d :: e))).
Proof.
  intros S1 S2. unfold match_leg_rule. rewrite S1, S2. cbn [negb orb snd]. set (cs := candidates _ _ _ _). pose proof (sort_sorted (ft_fares tt (l_src d)) cs) as HS.
  destruct (sort_rules (ft_fares tt (l_src d)) cs) as [|x l]; [constructor|]. cbn [keep_best]. now apply SS_filter.
Qed.
(** A leg that is not in the timetable gets no rules. *)
Theorem C69_unscheduled tt d e : l_sched d = false \/ l_sched (last (d :: e) d) = false -> snd (match_leg_rule tt (d :: e)) = [].
Proof. intros [H|H]; unfold match_leg_rule; rewrite H; cbn; [reflexivity|]. rewrite orb_true_r. reflexivity. Qed.
(** If no moment is in two timeframe groups, "the first group that covers the time" is "a group that covers it". *)
Lemma Applies_ext C1 C2 tt f hp rules d e r : (forall s z t g, C1 tt f s z t g <-> C2 tt f s z t g) -> Applies C1 tt f hp rules d e r <-> Applies C2 tt f hp rules d e r.
Proof.
  intros H. unfold Applies. cbv zeta. split; intros (H1 & H2 & H3 & H4 & H5 & H6); (split; [exact H1|split; [exact H2|split; [exact H3|split; [|split; [|exact H6]]]]]); intros g E; apply H; auto.
Qed.
Theorem C69_rules_iff_disjoint_frames tt f0 hp rules d e r : l_sched d = true -> l_sched (last (d :: e) d) = true ->
  ft_fares tt (l_src d) = load_rules f0 hp rules ->
  (forall s z t g g', Covers tt (load_rules f0 hp rules) s z t g -> Covers tt (load_rules f0 hp rules) s z t g' -> g = g') ->
  (In r (snd (match_leg_rule tt (d :: e))) <->
   In r rules /\ Applies Covers tt (load_rules f0 hp rules) hp rules d e r /\
   forall r', In r' rules -> Applies Covers tt (load_rules f0 hp rules) hp rules d e r' -> lr_prio r' <= lr_prio r).
Proof.
  intros S1 S2 HF HD. destruct (C69_rules_iff tt f0 hp rules d e r S1 S2 HF) as (_ & H). rewrite H.
  assert (X : forall r, Applies FirstCover tt (load_rules f0 hp rules) hp rules d e r <-> Applies Covers tt (load_rules f0 hp rules) hp rules d e r).
  { intros r0. apply Applies_ext. intros s z t g. unfold FirstCover. split; [tauto|]. intros HC. split; [exact HC|]. intros g' L HC'. specialize (HD _ _ _ _ _ HC HC'). lia. }
  rewrite X. split; intros (H1 & H2 & H3); (split; [auto|split; [auto|]]); intros r' R1 R2; apply H3; auto; now apply X.
Qed.

(** * A feed: zones 10 and 20, networks 1 (bus) and 2 (rail), a day ticket timeframe 0 and a rush hour timeframe 1. *)
Definition xr (prio : Z) (n fa ta tf : option nat) (p g : nat) : leg_rule :=
  {| lr_prio := prio; lr_net := n; lr_from := fa; lr_to := ta; lr_ftf := tf; lr_ttf := None; lr_product := p; lr_group := Some g; lr_exact := None; lr_contains := None |}.
Definition x_rules : list leg_rule :=
  [ xr 0 (Some 1) (Some 10) (Some 20) None 0 0; xr 1 (Some 1) (Some 10) (Some 20) None 1 1; xr 1 None None (Some 20) None 2 2; xr 5 (Some 2) None None None 3 3; xr 7 (Some 1) None None (Some 1) 4 4 ]%nat.
Definition x_base : fares :=
  {| fs_groups := []; fs_keys := []; fs_joins := [{| jr_from_net := 1; jr_to_net := 1; jr_from_stop := Some 100; jr_to_stop := Some 100 |}]%nat; fs_transfers := [];
     fs_frames := [[{| tf_start := 0; tf_end := 1440; tf_service := [true; true] |}]; [{| tf_start := 420; tf_end := 540; tf_service := [true; true] |}]];
     fs_sets := fun _ => []; fs_cnets := []; fs_cfroms := []; fs_ctos := [];
     fs_rider := fun _ => None; fs_rider_default := fun _ => true; fs_amount := fun p => 10 - Z.of_nat p; fs_name := Z.of_nat |}.
Definition x_tt (f : fares) : ftt :=
  {| ft_parent := fun l => if (l =? 101)%nat || (l =? 102)%nat then Some 100%nat else None;
     ft_areas := fun l => if (l =? 1)%nat then [10; 11]%nat else if (l =? 100)%nat then [15]%nat else if (l =? 2)%nat then [20]%nat else [];
     ft_stop_tz := fun _ => None; ft_local := fun _ t => t; ft_first := 0; ft_fares := fun _ => f |}.
Definition xl (i n : nat) (stops : list nat) (d a : Z) : leg :=
  {| l_id := i; l_sched := true; l_src := 0; l_net := Some n; l_stops := stops; l_tz := 0; l_dep := d; l_arr := a; l_fdep := d; l_farr := a |}.
Definition x_legs : list leg := [xl 0 1 [1; 101] 480 500; xl 1 1 [102; 2] 505 520; xl 2 2 [2; 3] 530 560]%nat.
(** Platforms 101 and 102 of station 100: the two bus legs are one effective leg. *)
Example C69_example_join : map (map l_id) (join_legs (x_tt x_base) x_legs) = [[0; 1]; [2]]%nat.
Proof. vm_compute. reflexivity. Qed.
Example C69_example_rules :
  map lr_product (snd (match_leg_rule (x_tt (load_rules x_base true x_rules)) [xl 0 1 [1; 101] 480 500; xl 1 1 [102; 2] 505 520]%nat)) = [2; 2; 1]%nat.
Proof. vm_compute. reflexivity. Qed.
(** The hypotheses of C69_rules_iff hold here. *)
Example C69_example_hyp : l_sched (xl 0 1 [1; 101]%nat 480 500) = true /\ NoDup (map l_id x_legs) /\
  ft_fares (x_tt (load_rules x_base true x_rules)) 0 = load_rules x_base true x_rules.
Proof. repeat split. repeat constructor; cbn; intuition discriminate. Qed.
(** A stop in two areas: a rule with an empty from_area_id is reported once per area (product 2 above, twice). *)
Theorem C69_rule_once_refuted : exists tt f0 rules d e r, NoDup rules /\ ft_fares tt (l_src d) = load_rules f0 true rules /\
  exists p q s, snd (match_leg_rule tt (d :: e)) = p ++ r :: q ++ r :: s.
Proof.
  exists (x_tt (load_rules x_base true x_rules)), x_base, x_rules, (xl 0 1 [1; 101] 480 500)%nat, [xl 1 1 [102; 2] 505 520]%nat, (xr 1 None None (Some 20) None 2 2)%nat.
  split; [repeat constructor; cbn; intuition discriminate|]. split; [reflexivity|]. exists [], [], [xr 1 (Some 1) (Some 10) (Some 20) None 1 1]%nat. vm_compute. reflexivity.
Qed.
(** Overlapping timeframe groups: the leg starts at 8:00, within the rush hour (group 1), and the rule for the rush hour
    has the highest priority; but only the first group that covers the time (group 0, all day) is looked up. *)
Theorem C69_overlapping_frames_refuted : exists tt f0 rules d r, ft_fares tt (l_src d) = load_rules f0 true rules /\ l_sched d = true /\
  In r rules /\ Applies Covers tt (load_rules f0 true rules) true rules d [] r /\ (forall r', In r' rules -> lr_prio r' <= lr_prio r) /\
  ~ In r (snd (match_leg_rule tt [d])).
Proof.
  exists (x_tt (load_rules x_base true x_rules)), x_base, x_rules, (xl 0 1 [1; 2] 480 500)%nat, (xr 7 (Some 1) None None (Some 1) 4 4)%nat.
  split; [reflexivity|]. split; [reflexivity|]. split; [cbn; tauto|]. split; [|split].
  - unfold Applies. cbv zeta. split; [reflexivity|]. split; [exists (Some 10%nat); split; [left; cbn; auto|now left]|]. split; [exists (Some 20%nat); split; [left; cbn; auto|now left]|].
    split; [|split; [discriminate|split; discriminate]]. intros g [= <-]. exists {| tf_start := 420; tf_end := 540; tf_service := [true; true] |}, 0. split; [vm_compute; auto|]. vm_compute. repeat split; congruence.
  - intros r' H. cbn in H. repeat (destruct H as [<-|H]; [cbn; lia|]). contradiction.
  - vm_compute. intuition discriminate.
Qed.
