From Coq Require Import ZArith Lia Bool List.
From Verif Require Import Time_Model.
Local Open Scope Z_scope.
Ltac Zify.zify_post_hook ::= Z.to_euclidean_division_equations.

Ltac bool_hyps := repeat match goal with
  | H : (_ && _)%bool = true |- _ => apply andb_prop in H; destruct H
  | H : (_ <=? _) = true |- _ => apply Z.leb_le in H
  | H : (_ <? _) = true |- _ => apply Z.ltb_lt in H
  | H : (_ =? _) = true |- _ => apply Z.eqb_eq in H
  | H : (_ <=? _) = false |- _ => apply Z.leb_gt in H
  | H : (_ <? _) = false |- _ => apply Z.ltb_ge in H
  | H : (_ =? _) = false |- _ => apply Z.eqb_neq in H
  end.

(** delta *)
Lemma delta_of_minutes_parts m : 0 <= m < 46080 ->
  d_days (delta_of_minutes m) = m / 1440 /\ d_mam (delta_of_minutes m) = m mod 1440.
Proof.
  intros H. unfold delta_of_minutes, delta_make, to_u16. simpl.
  rewrite Z.quot_div_nonneg, Z.rem_mod_nonneg by lia. lia.
Qed.

Lemma delta_roundtrip m : 0 <= m <= 32767 -> delta_count (delta_of_minutes m) = m.
Proof.
  intros H. unfold delta_count, to_i16. destruct (delta_of_minutes_parts m) as [-> ->]; lia.
Qed.

Lemma delta_inj a b : 0 <= a < 46080 -> 0 <= b < 46080 ->
  delta_eqb (delta_of_minutes a) (delta_of_minutes b) = true <-> a = b.
Proof.
  intros Ha Hb. unfold delta_eqb, delta_value. rewrite Z.eqb_eq.
  destruct (delta_of_minutes_parts a) as [-> ->]; auto.
  destruct (delta_of_minutes_parts b) as [-> ->]; auto. split; [|now intros ->].
  intros. lia.
Qed.

Lemma delta_same_day_order a b : 0 <= a < 46080 -> 0 <= b < 46080 -> a / 1440 = b / 1440 ->
  delta_lt (delta_of_minutes a) (delta_of_minutes b) = (a <? b).
Proof.
  intros Ha Hb Hd. unfold delta_lt, delta_value.
  destruct (delta_of_minutes_parts a) as [-> ->]; auto.
  destruct (delta_of_minutes_parts b) as [-> ->]; auto.
  destruct (Z.ltb_spec a b); [apply Z.ltb_lt|apply Z.ltb_ge]; lia.
Qed.

Lemma delta_lt_mam_first a b : 0 <= a < 46080 -> 0 <= b < 46080 ->
  delta_lt (delta_of_minutes a) (delta_of_minutes b) = true <->
  (a mod 1440 < b mod 1440 \/ (a mod 1440 = b mod 1440 /\ a / 1440 < b / 1440)).
Proof.
  intros Ha Hb. unfold delta_lt, delta_value. rewrite Z.ltb_lt.
  destruct (delta_of_minutes_parts a) as [-> ->]; auto.
  destruct (delta_of_minutes_parts b) as [-> ->]; auto. lia.
Qed.

Lemma delta_offset_roundtrip d m : -1 <= d < 30 -> -720 <= m < 1320 ->
  delta_to_offset (delta_of_offset d m) = (d, m).
Proof.
  intros. unfold delta_to_offset, delta_of_offset, delta_make, to_u16, to_i16. simpl. f_equal; lia.
Qed.

(** stop *)
Lemma odd_div_bit b0 b1 b2 b3 l :
  0 <= l < 268435456 ->
  let v := l + 268435456 * (b2z b0 + 2 * b2z b1 + 4 * b2z b2 + 8 * b2z b3) in
  v mod 268435456 = l /\ v / 268435456 = b2z b0 + 2 * b2z b1 + 4 * b2z b2 + 8 * b2z b3
  /\ v / 536870912 = b2z b1 + 2 * b2z b2 + 4 * b2z b3
  /\ v / 1073741824 = b2z b2 + 2 * b2z b3 /\ v / 2147483648 = b2z b3.
Proof. intros H v. subst v. destruct b0, b1, b2, b3; unfold b2z; lia. Qed.

Lemma stop_roundtrip l i o wi wo : 0 <= l < 268435456 ->
  stop_of_value (stop_value (stop_make l i o wi wo)) = mk_stop l i o wi wo.
Proof.
  intros H. unfold stop_of_value, stop_value, stop_make. cbn [s_loc s_in s_out s_win s_wout].
  rewrite (Z.mod_small l) by lia.
  destruct (odd_div_bit i o wi wo l H) as (-> & -> & -> & -> & ->).
  destruct i, o, wi, wo; reflexivity.
Qed.

Lemma stop_value_range l i o wi wo : 0 <= l < 268435456 ->
  0 <= stop_value (stop_make l i o wi wo) < 4294967296.
Proof.
  intros H. unfold stop_value, stop_make. simpl. rewrite Z.mod_small by lia.
  destruct i, o, wi, wo; simpl; lia.
Qed.

(** footpath *)
Lemma footpath_accept t d : 0 <= t < 8388607 -> 0 <= d ->
  footpath_make t d = Some (mk_fp t (Z.min d 511)).
Proof.
  intros Ht Hd. unfold footpath_make, fp_max_target, fp_max_duration, to_u32.
  destruct (Z.ltb_spec t 8388607); [|lia]. do 2 f_equal; lia.
Qed.

Lemma footpath_reject t d : 8388607 <= t -> footpath_make t d = None.
Proof. intros. unfold footpath_make, fp_max_target. destruct (Z.ltb_spec t 8388607); auto; lia. Qed.

Lemma footpath_value_roundtrip t d f : 0 <= t -> 0 <= d -> footpath_make t d = Some f ->
  footpath_of_value (footpath_value f) = f.
Proof.
  intros Ht Hd H. destruct (Z.lt_ge_cases t 8388607).
  - rewrite footpath_accept in H by lia. injection H as <-.
    unfold footpath_of_value, footpath_value. cbn [fp_target fp_duration].
    set (q := Z.min d 511). assert (0 <= q < 512) by lia. clearbody q. f_equal; lia.
  - rewrite footpath_reject in H by lia. discriminate.
Qed.

(** delta_t *)
Lemma unix_delta_roundtrip base t : i16_min <= t - base * 1440 <= i16_max ->
  delta_to_unix base (unix_to_delta base t) = t.
Proof. unfold delta_to_unix, unix_to_delta, clamp16, i16_min, i16_max. lia. Qed.

Lemma clamp16_spec x : i16_min <= clamp16 x <= i16_max /\
  (forall y, i16_min <= y <= i16_max -> Z.abs (x - clamp16 x) <= Z.abs (x - y)).
Proof. unfold clamp16, i16_min, i16_max. split; intros; lia. Qed.

Lemma unix_to_delta_mono base t u : t <= u -> unix_to_delta base t <= unix_to_delta base u.
Proof. unfold unix_to_delta, clamp16. lia. Qed.

Lemma tt_delta_agree first base day m :
  tt_to_delta base day m = unix_to_delta (first + base) (tt_to_unixtime first day m).
Proof. unfold tt_to_delta, unix_to_delta, tt_to_unixtime. f_equal. lia. Qed.

Lemma split_day_mam_spec base x :
  0 <= base * 1440 + x < 65536 * 1440 ->
  let (d, m) := split_day_mam base x in 0 <= m < 1440 /\ d * 1440 + m = base * 1440 + x /\ 0 <= d.
Proof.
  intros H. unfold split_day_mam, to_u16. rewrite Z.quot_div_nonneg, Z.rem_mod_nonneg by lia. lia.
Qed.

Lemma day_idx_mam_spec first t :
  0 <= t - first * 1440 < 65536 * 1440 ->
  let (d, m) := tt_day_idx_mam first t in 0 <= m < 1440 /\ tt_to_unixtime first d m = t.
Proof.
  intros H. unfold tt_day_idx_mam, tt_to_unixtime, to_u16.
  rewrite Z.quot_div_nonneg, Z.rem_mod_nonneg by lia. lia.
Qed.

(** mam_dist *)
Lemma mam_dist_min a b : 0 <= a < 1440 -> 0 <= b < 1440 ->
  let (dist, k) := mam_dist a b in
  dist = Z.abs (a - b - 1440 * k) /\ forall k', dist <= Z.abs (a - b - 1440 * k').
Proof.
  intros Ha Hb. unfold mam_dist. destruct (Z.abs (a - b) >? 720) eqn:E.
  - apply Z.gtb_lt in E. destruct (Z.ltb_spec (a - b) 0); split; intros; lia.
  - assert (Z.abs (a - b) <= 720) by (rewrite Z.gtb_ltb in E; apply Z.ltb_ge in E; lia).
    split; intros; lia.
Qed.

(** interval *)
Lemma iv_contains_spec i t : iv_contains i t = true <-> iv_from i <= t < iv_to i.
Proof. unfold iv_contains. rewrite andb_true_iff, Z.leb_le, Z.ltb_lt. tauto. Qed.

Lemma iv_overlaps_spec i o : iv_from i < iv_to i -> iv_from o < iv_to o ->
  iv_overlaps i o = true <-> exists t, iv_contains i t = true /\ iv_contains o t = true.
Proof.
  intros Hi Ho. unfold iv_overlaps. rewrite andb_true_iff, !Z.ltb_lt.
  setoid_rewrite iv_contains_spec. split.
  - intros [H1 H2]. exists (Z.max (iv_from i) (iv_from o)). lia.
  - intros (t & H1 & H2). lia.
Qed.

Lemma iv_intersect_spec i o t :
  iv_contains (iv_intersect i o) t = true <-> iv_contains i t = true /\ iv_contains o t = true.
Proof.
  unfold iv_intersect. destruct (iv_overlaps i o) eqn:E; rewrite !iv_contains_spec; simpl.
  - lia.
  - unfold iv_overlaps in E. apply andb_false_iff in E. rewrite !Z.ltb_ge in E. lia.
Qed.

Lemma iv_contains_iv_spec i o : iv_from o < iv_to o ->
  iv_contains_iv i o = true <-> forall t, iv_contains o t = true -> iv_contains i t = true.
Proof.
  intros Ho. unfold iv_contains_iv. rewrite andb_true_iff, !Z.leb_le. setoid_rewrite iv_contains_spec. split.
  - intros; lia.
  - intros H. pose proof (H (iv_from o)). pose proof (H (iv_to o - 1)). lia.
Qed.

Lemma iv_clamp_spec i x : iv_from i <= iv_to i ->
  iv_from i <= iv_clamp i x <= iv_to i /\
  (forall y, iv_from i <= y <= iv_to i -> Z.abs (x - iv_clamp i x) <= Z.abs (x - y)).
Proof.
  intros H. unfold iv_clamp. destruct (Z.ltb_spec x (iv_from i)); [split; intros; lia|].
  destruct (Z.ltb_spec (iv_to i) x); split; intros; lia.
Qed.

Lemma iv_shift_spec i x t :
  iv_contains (iv_shift_right i x) (t + x) = iv_contains i t /\
  iv_contains (iv_shift_left i x) (t - x) = iv_contains i t.
Proof.
  unfold iv_contains, iv_shift_right, iv_shift_left; simpl.
  split; f_equal; apply Bool.eq_iff_eq_true; rewrite ?Z.leb_le, ?Z.ltb_lt; lia.
Qed.

(** journey *)
Lemma journey_dom_refl j : journey_dominates j j = true.
Proof. unfold journey_dominates. rewrite !Z.leb_refl. now destruct (_ <=? _). Qed.

Lemma journey_dom_fwd a b : j_start a <= j_dest a -> j_start b <= j_dest b ->
  journey_dominates a b = true <->
  j_transfers a <= j_transfers b /\ journey_departure b <= journey_departure a /\ journey_arrival a <= journey_arrival b.
Proof.
  intros Ha Hb. unfold journey_dominates, journey_departure, journey_arrival.
  apply Z.leb_le in Ha, Hb. rewrite Ha, Hb. rewrite !andb_true_iff, !Z.leb_le. lia.
Qed.

Lemma journey_dom_bwd a b : j_dest a < j_start a -> j_dest b < j_start b ->
  journey_dominates a b = true <->
  j_transfers a <= j_transfers b /\ journey_departure b <= journey_departure a /\ journey_arrival a <= journey_arrival b.
Proof.
  intros Ha Hb. unfold journey_dominates, journey_departure, journey_arrival.
  apply Z.leb_gt in Ha, Hb. rewrite Ha, Hb. rewrite !andb_true_iff, !Z.leb_le. lia.
Qed.

Lemma journey_dom_trans a b c :
  journey_dominates a b = true -> journey_dominates b c = true -> journey_dominates a c = true.
Proof.
  unfold journey_dominates.
  destruct (Z.leb_spec (j_start a) (j_dest a)), (Z.leb_spec (j_start b) (j_dest b));
    rewrite !andb_true_iff, !Z.leb_le; intros; lia.
Qed.
