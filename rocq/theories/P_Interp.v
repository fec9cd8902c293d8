(** C40: interpolated stop times. *)
From Coq Require Import List ZArith Bool Arith Lia Reals Lra.
From Flocq Require Import Core.
From Verif Require Import Base Time_Model Interp_Model.
Import ListNotations.
Local Open Scope Z_scope.

(** * Arithmetic *)
Lemma rnd64_le x y : (x <= y)%R -> (rnd64 x <= rnd64 y)%R.
Proof. intros. unfold rnd64. apply round_le; auto; [apply FLT_exp_valid; unfold Prec_gt_0; lia|apply valid_rnd_N]. Qed.
Lemma rnd64_int d : Z.abs d <= 65536 -> rnd64 (IZR d) = IZR d.
Proof.
  intros H. unfold rnd64. apply round_generic; [apply valid_rnd_N|].
  apply generic_format_FLT. exists (Float radix2 d 0); simpl; try lia. unfold F2R; simpl. lra.
Qed.
Lemma nearestA_le x y : (x <= y)%R -> ZnearestA x <= ZnearestA y.
Proof. apply Zrnd_le. apply valid_rnd_N. Qed.
Lemma nearestA_int d : ZnearestA (IZR d) = d.
Proof. apply Zrnd_IZR. apply valid_rnd_N. Qed.

(** The amount added to the lower bound: [D] minutes, fraction [a / b]. *)
Definition share (D a b : Z) : Z := ZnearestA (rnd64 (IZR D * (if 0 <? b then rnd64 (IZR a / IZR b) else 0%R))).
Lemma frac_le a a' b : 0 < b -> a <= a' -> (IZR a / IZR b <= IZR a' / IZR b)%R.
Proof.
  intros Hb Ha. unfold Rdiv. apply Rmult_le_compat_r; [|now apply IZR_le].
  apply Rlt_le, Rinv_0_lt_compat. now apply IZR_lt.
Qed.
Lemma frac_bounds a b : 0 < b -> 0 <= a <= b -> (0 <= rnd64 (IZR a / IZR b) <= 1)%R.
Proof.
  intros Hb Ha. split.
  - rewrite <- (rnd64_int 0) at 1 by lia. apply rnd64_le. replace (IZR 0) with (IZR 0 / IZR b)%R by (unfold Rdiv; ring). apply frac_le; lia.
  - replace 1%R with (rnd64 (IZR 1)) by (apply (rnd64_int 1); lia). apply rnd64_le.
    replace (IZR 1) with (IZR b / IZR b)%R by (field; apply not_0_IZR; lia). apply frac_le; lia.
Qed.
Lemma share_mono D a a' b : 0 <= D -> a <= a' -> share D a b <= share D a' b.
Proof.
  intros HD Ha. unfold share. destruct (Z.ltb_spec 0 b) as [Hb|Hb]; [|lia].
  apply nearestA_le, rnd64_le, Rmult_le_compat_l; [now apply IZR_le|]. now apply rnd64_le, frac_le.
Qed.
Lemma share_bounds D a b : 0 <= D <= 65535 -> (0 < b -> 0 <= a <= b) -> 0 <= share D a b <= D.
Proof.
  intros HD Ha. unfold share. destruct (Z.ltb_spec 0 b) as [Hb|Hb].
  - pose proof (frac_bounds a b Hb (Ha Hb)) as [F0 F1]. set (p := rnd64 (IZR a / IZR b)) in *.
    assert (D0 : (0 <= IZR D)%R) by (apply IZR_le; lia). split.
    + assert (H0 : (IZR 0 <= rnd64 (IZR D * p))%R) by (eapply Rle_trans; [apply Req_le; symmetry; apply (rnd64_int 0); lia|]; apply rnd64_le; nra).
      apply nearestA_le in H0. rewrite nearestA_int in H0. exact H0.
    + assert (H0 : (rnd64 (IZR D * p) <= IZR D)%R) by (eapply Rle_trans; [|apply Req_le; apply (rnd64_int D); lia]; apply rnd64_le; nra).
      apply nearestA_le in H0. rewrite nearestA_int in H0. exact H0.
  - rewrite Rmult_0_r. change 0%R with (IZR 0). rewrite (rnd64_int 0) by lia. rewrite (nearestA_int 0). lia.
Qed.
Lemma to_i16_id z : -32768 <= z <= 32767 -> to_i16 z = z.
Proof. intros H. unfold to_i16. rewrite Z.mod_small; lia. Qed.
Lemma interpolate_share b idx :
  0 <= b_min b <= b_max b -> b_max b <= 32767 -> (b_min_idx b < b_max_idx b -> b_min_idx b <= idx <= b_max_idx b) ->
  bound_interpolate b idx = b_min b + share (b_max b - b_min b) (idx - b_min_idx b) (b_max_idx b - b_min_idx b).
Proof.
  intros H1 H2 H3. unfold bound_interpolate. cbv zeta. rewrite (to_i16_id (b_max b - b_min b)) by lia. fold (share (b_max b - b_min b) (idx - b_min_idx b) (b_max_idx b - b_min_idx b)).
  pose proof (share_bounds (b_max b - b_min b) (idx - b_min_idx b) (b_max_idx b - b_min_idx b) ltac:(lia) ltac:(lia)) as S.
  rewrite (to_i16_id (share _ _ _)) by lia. apply to_i16_id. lia.
Qed.
(** Without a positive distance the value is the lower bound. *)
Lemma interpolate_none b idx : -32768 <= b_min b <= 32767 -> b_max_idx b <= b_min_idx b -> bound_interpolate b idx = b_min b.
Proof.
  intros H1 H2. unfold bound_interpolate. cbv zeta. assert (E : (0 <? b_max_idx b - b_min_idx b) = false) by (apply Z.ltb_ge; lia). rewrite E.
  rewrite Rmult_0_r. change 0%R with (IZR 0). rewrite (rnd64_int 0) by lia. rewrite (nearestA_int 0). change (to_i16 0) with 0.
  rewrite Z.add_0_r. apply to_i16_id. lia.
Qed.

(** * The two passes *)
Definition given (ts : list Z) (f : nat) : Prop := (f < length ts)%nat /\ nth f ts 0 <> kInterpolate.
(** [p] is the nearest given position before [f], resp. after. *)
Definition prev_given (ts : list Z) (f p : nat) : Prop := (p < f)%nat /\ given ts p /\ forall q, (p < q < f)%nat -> ~ given ts q.
Definition next_given (ts : list Z) (f p : nat) : Prop := (f < p)%nat /\ given ts p /\ forall q, (f < q < p)%nat -> ~ given ts q.

Lemma back_length f ts : length (fst (back_pass f ts)) = length ts.
Proof.
  revert f; induction ts as [|t ts IH]; intros f; cbn [back_pass]; [reflexivity|]. specialize (IH (S f)).
  destruct (back_pass (S f) ts) as [bs [mx mi]]. cbn [fst] in IH. destruct (t =? kInterpolate); cbn [fst length]; now rewrite IH.
Qed.
Lemma fwd_length f ts mn mi : length (fwd_pass f ts mn mi) = length ts.
Proof. revert f mn mi; induction ts as [|t ts IH]; intros f mn mi; cbn [fwd_pass]; [reflexivity|]. destruct (t =? kInterpolate); cbn [length]; now rewrite IH. Qed.

(** State of the backward pass at its begin: the first given time, or (0, 0). *)
Lemma back_state ts : forall f,
  (exists p, given ts p /\ (forall q, (q < p)%nat -> ~ given ts q) /\ snd (back_pass f ts) = (nth p ts 0, Z.of_nat ((f + p) / 2))) \/
  ((forall p, ~ given ts p) /\ snd (back_pass f ts) = (0, 0)).
Proof.
  induction ts as [|t ts IH]; intros f; cbn [back_pass].
  - right. split; [|reflexivity]. intros p [Hp _]. cbn in Hp. lia.
  - specialize (IH (S f)). destruct (back_pass (S f) ts) as [bs [mx mi]]. cbn [snd] in IH.
    destruct (Z.eqb_spec t kInterpolate) as [->|Hn]; cbn [snd].
    + destruct IH as [(p & [Hp Hg] & Hq & E)|[Hno E]].
      * left. exists (S p). split; [split; [cbn; lia|exact Hg]|]. split.
        -- intros [|q] Hlt [H1 H2]; [now cbn in H2|]. apply (Hq q ltac:(lia)). split; [cbn in H1; lia|exact H2].
        -- cbn [nth]. rewrite E. replace (f + S p)%nat with (S f + p)%nat by lia. reflexivity.
      * right. split; [|exact E]. intros [|p] [H1 H2]; [now cbn in H2|]. apply (Hno p). split; [cbn in H1; lia|exact H2].
    + left. exists 0%nat. split; [split; [cbn; lia|exact Hn]|]. split; [intros q Hlt; lia|]. cbn [nth]. do 2 f_equal. f_equal. lia.
Qed.
Lemma given_skip ts t f : given (t :: ts) (S f) <-> given ts f.
Proof. unfold given. cbn [length nth]. split; intros [A B]; split; auto; lia. Qed.
Lemma back_nth ts : forall f i, (i < length ts)%nat -> nth i ts 0 = kInterpolate ->
  (exists p, next_given ts i p /\ nth i (fst (back_pass f ts)) (0, 0) = (nth p ts 0, Z.of_nat ((f + p) / 2))) \/
  ((forall p, (i < p)%nat -> ~ given ts p) /\ nth i (fst (back_pass f ts)) (0, 0) = (0, 0)).
Proof.
  induction ts as [|t ts IH]; intros f i Hi Ht; cbn [length] in Hi; [lia|]. cbn [back_pass].
  pose proof (back_state ts (S f)) as ST.
  destruct i as [|i].
  - cbn [nth] in Ht. subst t. destruct (back_pass (S f) ts) as [bs [mx mi]]. cbn [snd] in ST. cbn [Z.eqb fst nth].
    destruct ST as [(p & Hg & Hq & E)|[Hno E]].
    + left. exists (S p). split.
      * split; [lia|]. split; [now apply given_skip|]. intros [|q] Hlt; [lia|]. rewrite given_skip. apply Hq. lia.
      * cbn [fst nth]. replace (f + S p)%nat with (S f + p)%nat by lia. exact E.
    + right. split; [|exact E]. intros [|p] Hp; [lia|]. rewrite given_skip. apply Hno.
  - cbn [nth] in Ht. specialize (IH (S f) i ltac:(lia) Ht).
    assert (E : nth (S i) (fst (let '(bs, (mx, mi)) := back_pass (S f) ts in
        if t =? kInterpolate then ((mx, mi) :: bs, (mx, mi)) else ((t, -1) :: bs, (t, Z.of_nat (f / 2))))) (0, 0) = nth i (fst (back_pass (S f) ts)) (0, 0)).
    { destruct (back_pass (S f) ts) as [bs [mx mi]]. destruct (t =? kInterpolate); reflexivity. }
    rewrite E. destruct IH as [(p & (H1 & H2 & H3) & H4)|[H1 H2]].
    + left. exists (S p). split.
      * split; [lia|]. split; [now apply given_skip|]. intros [|q] Hlt; [lia|]. rewrite given_skip. apply H3. lia.
      * cbn [nth]. rewrite H4. replace (f + S p)%nat with (S f + p)%nat by lia. reflexivity.
    + right. split; [|exact H2]. intros [|p] Hp; [lia|]. rewrite given_skip. apply H1. lia.
Qed.
Lemma back_given ts : forall f i, given ts i -> snd (nth i (fst (back_pass f ts)) (0, 0)) = -1.
Proof.
  induction ts as [|t ts IH]; intros f i [Hi Ht]; cbn [length] in Hi; [lia|]. cbn [back_pass].
  destruct i as [|i].
  - cbn [nth] in Ht. destruct (back_pass (S f) ts) as [bs [mx mi]]. destruct (Z.eqb_spec t kInterpolate); [congruence|reflexivity].
  - specialize (IH (S f) i (proj1 (given_skip ts t i) (conj Hi Ht))). destruct (back_pass (S f) ts) as [bs [mx mi]].
    destruct (t =? kInterpolate); exact IH.
Qed.
Lemma fwd_nth ts : forall f mn mi i, (i < length ts)%nat -> nth i ts 0 = kInterpolate ->
  (exists p, prev_given ts i p /\ nth i (fwd_pass f ts mn mi) (0, 0) = (nth p ts 0, Z.of_nat ((f + p) / 2))) \/
  ((forall p, (p < i)%nat -> ~ given ts p) /\ nth i (fwd_pass f ts mn mi) (0, 0) = (mn, mi)).
Proof.
  induction ts as [|t ts IH]; intros f mn mi i Hi Ht; cbn [length] in Hi; [lia|]. cbn [fwd_pass].
  destruct i as [|i].
  - cbn [nth] in Ht. subst t. right. split; [intros p Hp; lia|]. reflexivity.
  - cbn [nth] in Ht. destruct (Z.eqb_spec t kInterpolate) as [->|Hn]; cbn [nth].
    + destruct (IH (S f) mn mi i ltac:(lia) Ht) as [(p & (H1 & H2 & H3) & H4)|[H1 H2]].
      * left. exists (S p). split; [split; [lia|]; split; [now apply given_skip|]|].
        -- intros [|q] Hq; [lia|]. rewrite given_skip. apply H3. lia.
        -- rewrite H4. replace (f + S p)%nat with (S f + p)%nat by lia. reflexivity.
      * right. split; [|exact H2]. intros [|p] Hp [G1 G2]; [now cbn in G2|]. apply (H1 p ltac:(lia)). now apply (given_skip ts kInterpolate).
    + destruct (IH (S f) t (Z.of_nat (f / 2)) i ltac:(lia) Ht) as [(p & (H1 & H2 & H3) & H4)|[H1 H2]].
      * left. exists (S p). split; [split; [lia|]; split; [now apply given_skip|]|].
        -- intros [|q] Hq; [lia|]. rewrite given_skip. apply H3. lia.
        -- rewrite H4. replace (f + S p)%nat with (S f + p)%nat by lia. reflexivity.
      * left. exists 0%nat. split.
        -- split; [lia|]. split; [split; [cbn; lia|exact Hn]|]. intros [|q] Hq; [lia|]. rewrite given_skip. apply H1. lia.
        -- rewrite H2. cbn [nth]. do 2 f_equal. f_equal. lia.
Qed.
Lemma fwd_given ts : forall f mn mi i, given ts i -> snd (nth i (fwd_pass f ts mn mi) (0, 0)) = -1.
Proof.
  induction ts as [|t ts IH]; intros f mn mi i [Hi Ht]; cbn [length] in Hi; [lia|]. cbn [fwd_pass]. destruct i as [|i].
  - cbn [nth] in Ht. destruct (Z.eqb_spec t kInterpolate); [congruence|reflexivity].
  - destruct (t =? kInterpolate); cbn [nth]; apply IH; apply (given_skip ts t i); split; auto.
Qed.

(** * Flattened view *)
Lemma flatten_length es : length (flatten es) = (2 * length es)%nat.
Proof. induction es as [|e es IH]; cbn [flatten length]; lia. Qed.
Lemma fill_nth es : forall idx bs f, length bs = (2 * length es)%nat -> (f < 2 * length es)%nat ->
  length (fill idx es bs) = length es /\
  nth f (flatten (fill idx es bs)) 0 =
    (let t := nth f (flatten es) 0 in
     if t =? kInterpolate then bound_interpolate (nth f bs (mk_bound 0 0 0 0)) (Z.of_nat (idx + f / 2)) else t).
Proof.
  induction es as [|e es IH]; intros idx bs f Hb Hf; cbn [length] in *; [lia|].
  destruct bs as [|arr [|dep bs]]; cbn [length] in Hb; try lia. cbn [fill flatten length].
  destruct f as [|[|f]].
  - cbn [nth]. split; [|rewrite Nat.add_0_r; reflexivity].
    destruct (Nat.eq_dec (length es) 0) as [Z0|NZ]; [destruct es; [destruct bs; reflexivity|discriminate]|].
    f_equal. apply (IH (S idx) bs 0%nat); lia.
  - cbn [nth]. split; [|change (1 / 2)%nat with 0%nat; rewrite Nat.add_0_r; reflexivity].
    destruct (Nat.eq_dec (length es) 0) as [Z0|NZ]; [destruct es; [destruct bs; reflexivity|discriminate]|].
    f_equal. apply (IH (S idx) bs 0%nat); lia.
  - destruct (IH (S idx) bs f ltac:(lia) ltac:(lia)) as [L N]. split; [now rewrite L|]. cbn [nth]. rewrite N.
    replace (S (S f) / 2)%nat with (S (f / 2)).
    + cbv zeta. now replace (idx + S (f / 2))%nat with (S idx + f / 2)%nat by lia.
    + change (S (S f)) with (2 + f)%nat. replace (2 + f)%nat with (f + 1 * 2)%nat by lia. rewrite Nat.div_add by lia. lia.
Qed.

(** * Theorem *)
(** Events in order: arrival and departure of every stop. *)
Definition sorted_given (ts : list Z) : Prop :=
  forall a b, (a <= b)%nat -> given ts a -> given ts b -> nth a ts 0 <= nth b ts 0.
Definition times_ok (ts : list Z) : Prop := forall f, given ts f -> 0 <= nth f ts 0 <= 32767.

Section Main.
  Variable es : list stop_events.
  Let ts := flatten es.
  Let n := length es.
  Hypothesis Hn : (2 <= n)%nat.
  Hypothesis HS : sorted_given ts.
  Hypothesis HT : times_ok ts.
  Let last := Z.of_nat n - 1.
  Let maxs := fst (back_pass 0 ts).
  Let mins := fwd_pass 0 ts 0 last.
  Let bd (f : nat) : bound := nth f (mk_bounds mins maxs) (mk_bound 0 0 0 0).

  Lemma len_ts : length ts = (2 * n)%nat.
  Proof. apply flatten_length. Qed.
  Lemma bd_val f : (f < 2 * n)%nat ->
    bd f = mk_bound (fst (nth f mins (0, 0))) (fst (nth f maxs (0, 0))) (snd (nth f mins (0, 0))) (snd (nth f maxs (0, 0))).
  Proof.
    intros Hf. unfold bd, mk_bounds.
    assert (L1 : length mins = (2 * n)%nat) by (unfold mins; now rewrite fwd_length, len_ts).
    assert (L2 : length maxs = (2 * n)%nat) by (unfold maxs; now rewrite back_length, len_ts).
    set (g := fun x : (Z * Z) * (Z * Z) => mk_bound (fst (fst x)) (fst (snd x)) (snd (fst x)) (snd (snd x))).
    rewrite (nth_indep _ _ (g ((0, 0), (0, 0)))) by (rewrite map_length, combine_length; lia).
    rewrite (map_nth g). rewrite combine_nth by lia. reflexivity.
  Qed.
  Lemma given_dec f : {given ts f} + {~ given ts f}.
  Proof.
    unfold given. destruct (lt_dec f (length ts)) as [H|H]; [|right; tauto].
    destruct (Z.eq_dec (nth f ts 0) kInterpolate) as [E|E]; [right; tauto|left; auto].
  Qed.
  Lemma missing f : (f < 2 * n)%nat -> ~ given ts f -> nth f ts 0 = kInterpolate.
  Proof.
    intros Hf H. destruct (Z.eq_dec (nth f ts 0) kInterpolate) as [E|E]; [exact E|]. exfalso. apply H. split; [rewrite len_ts; exact Hf|exact E].
  Qed.
  Lemma half_lt f : (f < 2 * n)%nat -> Z.of_nat (f / 2) <= last.
  Proof.
    intros H. pose proof (Nat.div_lt_upper_bound f 2 n ltac:(lia) ltac:(lia)). unfold last. lia.
  Qed.
  Lemma half_mono f g : (f <= g)%nat -> (f / 2 <= g / 2)%nat.
  Proof. intros H. now apply Nat.div_le_mono. Qed.

  (** Value of a missing time. *)
  Definition value (f : nat) : Z := bound_interpolate (bd f) (Z.of_nat (f / 2)).
  Lemma value_between f p q : (f < 2 * n)%nat -> ~ given ts f -> prev_given ts f p -> next_given ts f q ->
    value f = nth p ts 0 + share (nth q ts 0 - nth p ts 0) (Z.of_nat (f / 2) - Z.of_nat (p / 2)) (Z.of_nat (q / 2) - Z.of_nat (p / 2)) /\
    nth p ts 0 <= value f <= nth q ts 0.
  Proof.
    intros Hf Hm (P1 & P2 & P3) (Q1 & Q2 & Q3). pose proof (missing f Hf Hm) as Mf.
    assert (EP : nth f mins (0, 0) = (nth p ts 0, Z.of_nat (p / 2))).
    { destruct (fwd_nth ts 0 0 last f ltac:(rewrite len_ts; lia) Mf) as [(p' & (A & B & C) & E)|[A _]]; [|exfalso; exact (A p P1 P2)].
      assert (p' = p). { destruct (Nat.lt_trichotomy p p') as [L|[L|L]]; [exfalso; apply (P3 p'); auto|auto|exfalso; apply (C p); auto]. }
      subst p'. exact E. }
    assert (EQ : nth f maxs (0, 0) = (nth q ts 0, Z.of_nat (q / 2))).
    { destruct (back_nth ts 0 f ltac:(rewrite len_ts; lia) Mf) as [(p' & (A & B & C) & E)|[A _]]; [|exfalso; exact (A q Q1 Q2)].
      assert (p' = q). { destruct (Nat.lt_trichotomy q p') as [L|[L|L]]; [exfalso; apply (C q); auto|auto|exfalso; apply (Q3 p'); auto]. }
      subst p'. exact E. }
    unfold value. rewrite (bd_val f Hf), EP, EQ. cbn [fst snd].
    pose proof (HT p P2) as TP. pose proof (HT q Q2) as TQ. pose proof (HS p q ltac:(lia) P2 Q2) as TPQ.
    pose proof (half_mono p f ltac:(lia)). pose proof (half_mono f q ltac:(lia)).
    rewrite interpolate_share; cbn [b_min b_max b_min_idx b_max_idx]; try lia. split; [reflexivity|].
    pose proof (share_bounds (nth q ts 0 - nth p ts 0) (Z.of_nat (f / 2) - Z.of_nat (p / 2)) (Z.of_nat (q / 2) - Z.of_nat (p / 2)) ltac:(lia) ltac:(lia)). lia.
  Qed.
  Lemma value_no_next f p : (f < 2 * n)%nat -> ~ given ts f -> prev_given ts f p -> (forall q, (f < q)%nat -> ~ given ts q) -> value f = nth p ts 0.
  Proof.
    intros Hf Hm (P1 & P2 & P3) Hq. pose proof (missing f Hf Hm) as Mf.
    assert (EP : nth f mins (0, 0) = (nth p ts 0, Z.of_nat (p / 2))).
    { destruct (fwd_nth ts 0 0 last f ltac:(rewrite len_ts; lia) Mf) as [(p' & (A & B & C) & E)|[A _]]; [|exfalso; exact (A p P1 P2)].
      assert (p' = p). { destruct (Nat.lt_trichotomy p p') as [L|[L|L]]; [exfalso; apply (P3 p'); auto|auto|exfalso; apply (C p); auto]. }
      subst p'. exact E. }
    assert (EQ : nth f maxs (0, 0) = (0, 0)).
    { destruct (back_nth ts 0 f ltac:(rewrite len_ts; lia) Mf) as [(p' & (A & B & C) & E)|[_ E]]; [exfalso; exact (Hq p' A B)|exact E]. }
    unfold value. rewrite (bd_val f Hf), EP, EQ. cbn [fst snd]. pose proof (HT p P2).
    rewrite interpolate_none; cbn [b_min b_max b_min_idx b_max_idx]; lia.
  Qed.
  Lemma value_no_prev f : (f < 2 * n)%nat -> ~ given ts f -> (forall q, (q < f)%nat -> ~ given ts q) -> value f = 0.
  Proof.
    intros Hf Hm Hq. pose proof (missing f Hf Hm) as Mf.
    assert (EP : nth f mins (0, 0) = (0, last)).
    { destruct (fwd_nth ts 0 0 last f ltac:(rewrite len_ts; lia) Mf) as [(p' & (A & B & C) & E)|[_ E]]; [exfalso; exact (Hq p' A B)|exact E]. }
    assert (EQ : snd (nth f maxs (0, 0)) <= last).
    { destruct (back_nth ts 0 f ltac:(rewrite len_ts; lia) Mf) as [(p' & (A & B & C) & E)|[_ E]].
      - fold maxs in E. rewrite E. cbn [snd]. apply half_lt. destruct B as [B _]. rewrite len_ts in B. lia.
      - fold maxs in E. rewrite E. cbn [snd]. unfold last. lia. }
    unfold value. rewrite (bd_val f Hf), EP. cbn [fst snd].
    rewrite interpolate_none; cbn [b_min b_max b_min_idx b_max_idx]; lia.
  Qed.
  Lemma prev_or_none f : (exists p, prev_given ts f p) \/ (forall q, (q < f)%nat -> ~ given ts q).
  Proof.
    induction f as [|f IH]; [right; intros q Hq; lia|].
    destruct (given_dec f) as [G|G].
    - left. exists f. split; [lia|]. split; [exact G|]. intros q Hq. lia.
    - destruct IH as [(p & P1 & P2 & P3)|H].
      + left. exists p. split; [lia|]. split; [exact P2|]. intros q Hq. destruct (Nat.eq_dec q f) as [->|]; [exact G|apply P3; lia].
      + right. intros q Hq. destruct (Nat.eq_dec q f) as [->|]; [exact G|apply H; lia].
  Qed.
  Lemma next_or_none f : (exists p, next_given ts f p) \/ (forall q, (f < q)%nat -> ~ given ts q).
  Proof.
    assert (G : forall m, (exists p, next_given ts f p) \/ (forall q, (f < q < f + m)%nat -> ~ given ts q)).
    { induction m as [|m IH]; [right; intros q Hq; lia|]. destruct IH as [H|H]; [now left|].
      destruct m as [|m]; [right; intros q Hq; lia|].
      destruct (given_dec (f + S m)) as [Gm|Gm].
      - left. exists (f + S m)%nat. split; [lia|]. split; [exact Gm|exact H].
      - right. intros q Hq. destruct (Nat.eq_dec q (f + S m)) as [->|]; [exact Gm|apply H; lia]. }
    destruct (G (S (2 * n))) as [H|H]; [now left|right]. intros q Hq [Hl Hg]. apply (H q); [rewrite len_ts in Hl; lia|split; auto].
  Qed.
  Definition result (f : nat) : Z := if nth f ts 0 =? kInterpolate then value f else nth f ts 0.
  Lemma result_given f : given ts f -> result f = nth f ts 0.
  Proof. intros [_ H]. unfold result. destruct (Z.eqb_spec (nth f ts 0) kInterpolate); [contradiction|reflexivity]. Qed.
  Lemma result_missing f : (f < 2 * n)%nat -> ~ given ts f -> result f = value f.
  Proof. intros H1 H2. unfold result. now rewrite (missing f H1 H2), Z.eqb_refl. Qed.
  (** Upper neighbours. *)
  Lemma result_le_given f q : (f <= q)%nat -> (f < 2 * n)%nat -> given ts q -> result f <= nth q ts 0.
  Proof.
    intros Hfq Hf Gq. destruct (given_dec f) as [G|G].
    - rewrite result_given by exact G. now apply HS.
    - rewrite result_missing by auto.
      destruct (prev_or_none f) as [(p & P)|Np].
      + destruct (next_or_none f) as [(q' & Q)|Nq].
        * destruct (value_between f p q' Hf G P Q) as [_ [_ B]]. etransitivity; [exact B|].
          destruct Q as (Q1 & Q2 & Q3). apply HS; auto. destruct (Nat.lt_ge_cases q q') as [L|L]; [|exact L].
          exfalso. apply (Q3 q); [|exact Gq]. split; [|exact L]. destruct (Nat.eq_dec f q) as [->|]; [contradiction|lia].
        * destruct (Nat.eq_dec f q) as [->|]; [contradiction|]. exfalso. apply (Nq q); [lia|exact Gq].
      + rewrite value_no_prev by auto. apply HT. exact Gq.
  Qed.
  Lemma result_step f : (S f < 2 * n)%nat -> result f <= result (S f).
  Proof.
    intros Hf. destruct (given_dec (S f)) as [G'|G'].
    - rewrite (result_given (S f)) by exact G'. apply result_le_given; auto; lia.
    - rewrite (result_missing (S f)) by auto. destruct (given_dec f) as [G|G].
      + rewrite result_given by exact G.
        assert (P : prev_given ts (S f) f) by (split; [lia|]; split; [exact G|intros q Hq; lia]).
        destruct (next_or_none (S f)) as [(q & Q)|Nq].
        * now destruct (value_between (S f) f q Hf G' P Q) as [_ [B _]].
        * rewrite (value_no_next (S f) f) by auto. lia.
      + rewrite result_missing by (auto; lia).
        destruct (prev_or_none f) as [(p & P)|Np].
        * assert (P' : prev_given ts (S f) p).
          { destruct P as (P1 & P2 & P3). split; [lia|]. split; [exact P2|]. intros q Hq. destruct (Nat.eq_dec q f) as [->|]; [exact G|apply P3; lia]. }
          destruct (next_or_none (S f)) as [(q & Q)|Nq].
          -- assert (Q' : next_given ts f q).
             { destruct Q as (Q1 & Q2 & Q3). split; [lia|]. split; [exact Q2|]. intros q' Hq. destruct (Nat.eq_dec q' (S f)) as [->|]; [exact G'|apply Q3; lia]. }
             destruct (value_between f p q ltac:(lia) G P Q') as [E _]. destruct (value_between (S f) p q Hf G' P' Q) as [E' _].
             rewrite E, E'. apply Z.add_le_mono_l. apply share_mono.
             ++ destruct P as (P1 & P2 & _), Q as (Q1 & Q2 & _). pose proof (HS p q ltac:(lia) P2 Q2). lia.
             ++ pose proof (half_mono f (S f) ltac:(lia)). lia.
          -- assert (Nq' : forall q, (f < q)%nat -> ~ given ts q) by (intros q Hq; destruct (Nat.eq_dec q (S f)) as [->|]; [exact G'|apply Nq; lia]).
             rewrite (value_no_next f p), (value_no_next (S f) p) by (auto; lia). lia.
        * assert (Np' : forall q, (q < S f)%nat -> ~ given ts q) by (intros q Hq; destruct (Nat.eq_dec q f) as [->|]; [exact G|apply Np; lia]).
          rewrite (value_no_prev f), (value_no_prev (S f)) by (auto; lia). lia.
  Qed.
  Lemma result_mono f g : (f <= g)%nat -> (g < 2 * n)%nat -> result f <= result g.
  Proof.
    intros H. induction H as [|g H IH]; intros Hg; [lia|]. etransitivity; [apply IH; lia|]. now apply result_step.
  Qed.
  Lemma result_nonneg f : (f < 2 * n)%nat -> 0 <= result f.
  Proof.
    intros Hf. destruct (given_dec f) as [G|G]; [rewrite result_given by exact G; apply HT; exact G|]. rewrite result_missing by auto.
    destruct (prev_or_none f) as [(p & P)|Np]; [|rewrite value_no_prev by auto; lia].
    pose proof (HT p (proj1 (proj2 P))). destruct (next_or_none f) as [(q & Q)|Nq].
    - destruct (value_between f p q Hf G P Q) as [_ B]. lia.
    - rewrite (value_no_next f p) by auto. lia.
  Qed.
  (** The two error checks. *)
  Lemma last_check : (snd (nth (2 * n - 2) maxs (0, 0)) =? 0) = true <-> ~ given ts (2 * n - 2) /\ ~ given ts (2 * n - 1).
  Proof.
    rewrite Z.eqb_eq. destruct (given_dec (2 * n - 2)) as [G|G].
    - unfold maxs. rewrite back_given by exact G. split; [lia|tauto].
    - destruct (back_nth ts 0 (2 * n - 2) ltac:(rewrite len_ts; lia) (missing (2 * n - 2) ltac:(lia) G)) as [(p & (A & B & C) & E)|[A E]];
        fold maxs in E; rewrite E; cbn [snd].
      + assert (p = (2 * n - 1)%nat) by (destruct B as [B _]; rewrite len_ts in B; lia). subst p. cbn [Nat.add].
        replace ((2 * n - 1) / 2)%nat with (n - 1)%nat.
        * split; [lia|tauto].
        * replace (2 * n - 1)%nat with (1 + (n - 1) * 2)%nat by lia. rewrite Nat.div_add by lia. reflexivity.
      + split; [|reflexivity]. intros _. split; [exact G|]. apply A. lia.
  Qed.
  Lemma first_check : (snd (nth 1 mins (0, 0)) =? last) = true <-> ~ given ts 0 /\ ~ given ts 1.
  Proof.
    rewrite Z.eqb_eq. destruct (given_dec 1) as [G|G].
    - unfold mins. rewrite fwd_given by exact G. unfold last. split; [lia|tauto].
    - destruct (fwd_nth ts 0 0 last 1 ltac:(rewrite len_ts; lia) (missing 1 ltac:(lia) G)) as [(p & (A & B & C) & E)|[A E]];
        fold mins in E; rewrite E; cbn [snd].
      + assert (p = 0%nat) by lia. subst p. change ((0 + 0) / 2)%nat with 0%nat. unfold last. split; [lia|tauto].
      + split; [|reflexivity]. intros _. split; [apply A; lia|exact G].
  Qed.
End Main.

(** Given times are non-decreasing along the trip, not negative; at least two stops. *)
Definition trip_ok (es : list stop_events) : Prop := (2 <= length es)%nat /\ sorted_given (flatten es) /\ times_ok (flatten es).

Lemma interpolate_unfold es : (2 <= length es)%nat ->
  interpolate es =
    let last := Z.of_nat (length es) - 1 in
    let maxs := fst (back_pass 0 (flatten es)) in
    let mins := fwd_pass 0 (flatten es) 0 last in
    if snd (nth (2 * length es - 2) maxs (0, 0)) =? 0 then kErrorLastMissing
    else if snd (nth 1 mins (0, 0)) =? last then kErrorFirstMissing else kOk (fill 0 es (mk_bounds mins maxs)).
Proof.
  intros H. unfold interpolate. cbv zeta. rewrite flatten_length.
  assert (E : (2 * length es <=? 1)%nat = false) by (apply Nat.leb_gt; lia). rewrite E. reflexivity.
Qed.
Lemma interpolate_result_nth es es' f : trip_ok es -> interpolate es = kOk es' -> (f < 2 * length es)%nat ->
  length es' = length es /\ nth f (flatten es') 0 = result es f.
Proof.
  intros (Hn & HS & HT) H Hf. rewrite interpolate_unfold in H by exact Hn. cbv zeta in H.
  destruct (snd (nth (2 * length es - 2) _ _) =? 0); [discriminate|]. destruct (snd (nth 1 _ _) =? _); [discriminate|]. injection H as <-.
  set (bs := mk_bounds _ _).
  assert (LB : length bs = (2 * length es)%nat).
  { unfold bs, mk_bounds. rewrite map_length, combine_length, fwd_length, back_length, flatten_length. lia. }
  destruct (fill_nth es 0 bs f LB Hf) as [L N]. split; [exact L|]. rewrite N. reflexivity.
Qed.

(** The trip is accepted iff its first and its last stop have a given time. *)
Theorem C40_accepted_iff_ends_given :
  forall es, (2 <= length es)%nat -> times_ok (flatten es) ->
    let g f := nth f (flatten es) 0 <> kInterpolate in
    let n := length es in
    ((exists es', interpolate es = kOk es') <-> (g 0%nat \/ g 1%nat) /\ (g (2 * n - 2)%nat \/ g (2 * n - 1)%nat)) /\
    (interpolate es = kErrorLastMissing <-> ~ g (2 * n - 2)%nat /\ ~ g (2 * n - 1)%nat).
Proof.
  intros es Hn HT g n.
  pose proof (last_check es Hn) as L. pose proof (first_check es Hn) as F. fold n in L, F.
  assert (GV : forall f, (f < 2 * n)%nat -> given (flatten es) f <-> g f).
  { intros f Hf. unfold given, g. rewrite flatten_length. fold n. tauto. }
  rewrite (GV (2 * n - 2)%nat), (GV (2 * n - 1)%nat) in L by lia. rewrite (GV 0%nat), (GV 1%nat) in F by lia.
  assert (DEC : forall f, g f \/ ~ g f) by (intros f; unfold g; destruct (Z.eq_dec (nth f (flatten es) 0) kInterpolate); tauto).
  rewrite interpolate_unfold by exact Hn. cbv zeta. fold n.
  match goal with |- context [if ?a then kErrorLastMissing else _] => destruct a end.
  - destruct L as [L _]. specialize (L eq_refl). split; [split; [intros (x & X); discriminate|tauto]|tauto].
  - match goal with |- context [if ?a then kErrorFirstMissing else _] => destruct a end.
    + destruct F as [F _]. specialize (F eq_refl). split; [split; [intros (x & X); discriminate|tauto]|].
      split; [discriminate|]. intros H. destruct L as [_ L]. discriminate (L H).
    + split.
      * split; [intros _|eauto]. split.
        -- destruct (DEC 0%nat), (DEC 1%nat); auto. destruct F as [_ F]. exfalso. discriminate F. tauto.
        -- destruct (DEC (2 * n - 2)%nat), (DEC (2 * n - 1)%nat); auto. destruct L as [_ L]. exfalso. discriminate L. tauto.
      * split; [discriminate|]. intros H. destruct L as [_ L]. discriminate (L H).
Qed.
(** An accepted trip has all times, the given ones unchanged, and all times are non-decreasing along the trip. *)
Theorem C40_complete_and_monotone :
  forall es es', trip_ok es -> interpolate es = kOk es' ->
    let t f := nth f (flatten es) 0 in
    let t' f := nth f (flatten es') 0 in
    let n := length es in
    length es' = n /\
    (forall f, (f < 2 * n)%nat -> t f <> kInterpolate -> t' f = t f) /\
    (forall f, (f < 2 * n)%nat -> 0 <= t' f) /\
    (forall f g, (f <= g < 2 * n)%nat -> t' f <= t' g).
Proof.
  intros es es' OK H t t' n. pose proof OK as (Hn & HS & HT).
  assert (R : forall f, (f < 2 * n)%nat -> t' f = result es f) by (intros f Hf; now apply (interpolate_result_nth es es' f OK H)).
  split; [exact (proj1 (interpolate_result_nth es es' 0 OK H ltac:(lia)))|]. split; [|split].
  - intros f Hf Hg. rewrite R by exact Hf. apply (result_given es). split; [rewrite flatten_length; exact Hf|exact Hg].
  - intros f Hf. rewrite R by exact Hf. now apply result_nonneg.
  - intros f g Hfg. rewrite !R by lia. apply result_mono; auto; lia.
Qed.

(** ** Accuracy *)
(** The interpolated value differs by less than a minute from the exact linear interpolation by stop index. *)
Lemma rnd64_err x : (0 <= x <= 65536)%R -> (Rabs (rnd64 x - x) <= / 1073741824)%R.
Proof.
  intros Hx. unfold rnd64.
  assert (V : Valid_exp (FLT_exp (-1074) 53)) by (apply FLT_exp_valid; unfold Prec_gt_0; lia).
  pose proof (error_le_half_ulp radix2 (FLT_exp (-1074) 53) (fun x => negb (Z.even x)) x) as E.
  change (round radix2 (FLT_exp (-1074) 53) (Znearest (fun x => negb (Z.even x))) x) with (round radix2 (FLT_exp (-1074) 53) ZnearestE x) in E.
  eapply Rle_trans; [exact E|].
  assert (U : (ulp radix2 (FLT_exp (-1074) 53) x <= ulp radix2 (FLT_exp (-1074) 53) (bpow radix2 16))%R).
  { apply ulp_le; auto; [apply FLT_exp_monotone|]. rewrite !Rabs_pos_eq; [|apply bpow_ge_0|lra]. simpl. lra. }
  rewrite ulp_bpow in U. change (FLT_exp (-1074) 53 (16 + 1)) with (-36) in U.
  assert (B : (bpow radix2 (-36) <= / 536870912)%R).
  { change (-36) with (-(36)). rewrite bpow_opp. apply Rinv_le; [lra|]. simpl. lra. }
  lra.
Qed.
Lemma share_accurate D a b : 0 <= D <= 32767 -> 0 < b -> 0 <= a <= b ->
  (Rabs (IZR (share D a b) - IZR D * (IZR a / IZR b)) < 1)%R.
Proof.
  intros HD Hb Ha. unfold share. assert (E : (0 <? b) = true) by (now apply Z.ltb_lt). rewrite E.
  set (x := (IZR a / IZR b)%R). set (p := rnd64 x).
  assert (X : (0 <= x <= 1)%R).
  { unfold x. split.
    - replace 0%R with (IZR 0 / IZR b)%R by (unfold Rdiv; ring). apply frac_le; lia.
    - replace 1%R with (IZR b / IZR b)%R by (field; apply not_0_IZR; lia). apply frac_le; lia. }
  pose proof (frac_bounds a b Hb Ha) as P. fold x p in P.
  pose proof (rnd64_err x ltac:(lra)) as E1. fold p in E1.
  assert (D0 : (0 <= IZR D <= 32767)%R) by (split; apply IZR_le; lia).
  assert (DP : (0 <= IZR D * p <= 65536)%R) by nra.
  pose proof (rnd64_err (IZR D * p) DP) as E2. set (y := rnd64 (IZR D * p)) in *.
  pose proof (Znearest_half (Zle_bool 0) y) as E3. apply Rabs_le_inv in E1, E2, E3.
  apply Rabs_def1; nra.
Qed.
Theorem C40_linear :
  forall es es' f p q, trip_ok es -> interpolate es = kOk es' ->
    let t f := nth f (flatten es) 0 in
    let stop f := IZR (Z.of_nat (f / 2)) in
    (* [p] and [q] are the nearest given times before and after the missing time [f], at different stops *)
    (p < f < q)%nat -> (q < 2 * length es)%nat -> t p <> kInterpolate -> t q <> kInterpolate ->
    (forall g, (p < g < q)%nat -> t g = kInterpolate) -> (p / 2 < q / 2)%nat ->
    (Rabs (IZR (nth f (flatten es') 0%Z) - (IZR (t p) + IZR (t q - t p)%Z * ((stop f - stop p) / (stop q - stop p)))) < 1)%R.
Proof.
  intros es es' f p q OK H t stop Hpfq Hq Gp Gq Hm Hpq. pose proof OK as (Hn & HS & HT).
  destruct (interpolate_result_nth es es' f OK H ltac:(lia)) as [_ ->].
  assert (Gp' : given (flatten es) p) by (split; [rewrite flatten_length; lia|exact Gp]).
  assert (Gq' : given (flatten es) q) by (split; [rewrite flatten_length; lia|exact Gq]).
  assert (Mf : ~ given (flatten es) f) by (intros [_ G]; apply G, Hm; lia).
  rewrite (result_missing es) by (auto; lia).
  assert (P : prev_given (flatten es) f p) by (split; [lia|]; split; [exact Gp'|intros g Hg [_ G]; apply G, Hm; lia]).
  assert (Q : next_given (flatten es) f q) by (split; [lia|]; split; [exact Gq'|intros g Hg [_ G]; apply G, Hm; lia]).
  destruct (value_between es Hn HS HT f p q ltac:(lia) Mf P Q) as [-> _]. fold (t p) (t q).
  rewrite plus_IZR. unfold stop. rewrite <- !minus_IZR.
  pose proof (HT p Gp') as Tp. pose proof (HT q Gq') as Tq. pose proof (HS p q ltac:(lia) Gp' Gq') as Tpq. fold (t p) (t q) in Tp, Tq, Tpq.
  pose proof (half_mono p f ltac:(lia)). pose proof (half_mono f q ltac:(lia)).
  pose proof (share_accurate (t q - t p) (Z.of_nat (f / 2) - Z.of_nat (p / 2)) (Z.of_nat (q / 2) - Z.of_nat (p / 2)) ltac:(lia) ltac:(lia) ltac:(lia)) as A.
  match goal with |- (Rabs ?z < 1)%R => match type of A with (Rabs ?w < 1)%R => replace z with w by ring end end. exact A.
Qed.

(** Stops at 10:00, -, -, 10:20/-, -/10:41: the values cannot be computed with [vm_compute] (real numbers), the theorem applies. *)
Definition ex40 : list stop_events :=
  [mk_se kInterpolate 600; mk_se kInterpolate kInterpolate; mk_se kInterpolate kInterpolate; mk_se 620 kInterpolate; mk_se kInterpolate 641].
Lemma ex40_given f : given (flatten ex40) f <-> (f = 1 \/ f = 6 \/ f = 9)%nat.
Proof.
  unfold given. split.
  - intros [H G]. do 10 (destruct f as [|f]; [cbn in G; first [lia|now (exfalso; apply G)]|]). cbn in H. lia.
  - intros [->|[->| ->]]; cbn; unfold kInterpolate; split; lia.
Qed.
Example C40_example : trip_ok ex40 /\ exists es', interpolate ex40 = kOk es'.
Proof.
  assert (T : times_ok (flatten ex40)) by (intros f G; apply ex40_given in G as [->|[->| ->]]; cbn; lia).
  split.
  - split; [cbn; lia|]. split; [|exact T]. intros a b Hab Ga Gb. apply ex40_given in Ga, Gb.
    destruct Ga as [->|[->| ->]], Gb as [->|[->| ->]]; cbn; lia.
  - apply (proj1 (C40_accepted_iff_ends_given ex40 ltac:(cbn; lia) T)). cbn. unfold kInterpolate. split; [right|right]; discriminate.
Qed.
Print Assumptions C40_complete_and_monotone.
Print Assumptions C40_linear.
Print Assumptions C40_accepted_iff_ends_given.
