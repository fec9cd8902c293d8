(** C77: counts per feed. *)
From Coq Require Import ZArith List Bool Lia Arith.
From Verif Require Import Link_Model.
Import ListNotations.
Local Open Scope Z_scope.

(** ** Specification *)
(** A trip or flexible trip of feed [f] operates on day [d]. *)
Definition Operates (c : tt_counts) (f : nat) (d : Z) : Prop :=
  exists n, d = Z.of_nat n /\ (n < c_n_days c)%nat /\
    ((exists bs b, In (f, bs) (c_trips c) /\ In b bs /\ b n = true) \/
     (exists b fs, In (b, fs) (c_flex c) /\ In f fs /\ b n = true)).
Definition sumz (l : list Z) : Z := fold_right Z.add 0 l.
Definition occ (f : nat) (l : list nat) : Z := Z.of_nat (count_occ Nat.eq_dec l f).
(** Number of days below [n] with the property. *)
Fixpoint n_days_with (n : nat) (p : nat -> bool) : Z :=
  match n with O => 0 | S n' => n_days_with n' p + (if p n' then 1 else 0) end.


Definition Days (n : nat) (p : nat -> bool) (l : list Z) : Prop := l = map Z.of_nat (filter p (seq 0 n)).

(** ** Lemmas *)
Lemma set_bits_in n p d : In d (set_bits n p) <-> exists k, d = Z.of_nat k /\ (k < n)%nat /\ p k = true.
Proof.
  unfold set_bits. rewrite in_map_iff. split.
  - intros (k & <- & H). apply filter_In in H. destruct H as [H1 H2]. apply in_seq in H1. exists k. split; [reflexivity|]. split; [lia|exact H2].
  - intros (k & -> & H1 & H2). exists k. split; [reflexivity|]. apply filter_In. split; [apply in_seq; lia|exact H2].
Qed.
Lemma set_bits_len n p : Z.of_nat (length (set_bits n p)) = n_days_with n p.
Proof.
  unfold set_bits. rewrite map_length. induction n as [|n IH]; [reflexivity|].
  rewrite seq_S, filter_app, app_length. cbn [filter Nat.add n_days_with]. destruct (p n); cbn [length]; lia.
Qed.
(** First, last and number of a list of days. *)
Lemma day_metrics_gen l : forall m,
  let r := fold_left (fun m d => {| d_first := Z.min (d_first m) d; d_last := Z.max (d_last m) d; d_count := d_count m + 1 |}) l m in
  d_count r = d_count m + Z.of_nat (length l) /\
  d_first r = fold_left Z.min l (d_first m) /\ d_last r = fold_left Z.max l (d_last m).
Proof.
  induction l as [|d l IH]; intros m; cbn zeta; cbn [fold_left length].
  - split; [lia|]. auto.
  - destruct (IH {| d_first := Z.min (d_first m) d; d_last := Z.max (d_last m) d; d_count := d_count m + 1 |}) as (H1 & H2 & H3).
    cbn zeta in *. rewrite H1, H2, H3. cbn [d_count d_first d_last]. split; [lia|]. auto.
Qed.
Lemma fold_min l : forall a, let r := fold_left Z.min l a in r <= a /\ (forall x, In x l -> r <= x) /\ (r = a \/ In r l).
Proof.
  induction l as [|x l IH]; intros a; cbn zeta; cbn [fold_left]; [split; [lia|]; split; [intros y []|now left]|].
  destruct (IH (Z.min a x)) as (H1 & H2 & H3). cbn zeta in *. split; [lia|]. split.
  - intros y [<-|Hy]; [lia|auto].
  - destruct H3 as [H3|H3]; [|right; now right]. destruct (Z.min_spec a x) as [[_ E]|[_ E]]; [left|right; left]; congruence.
Qed.
Lemma fold_max l : forall a, let r := fold_left Z.max l a in a <= r /\ (forall x, In x l -> x <= r) /\ (r = a \/ In r l).
Proof.
  induction l as [|x l IH]; intros a; cbn zeta; cbn [fold_left]; [split; [lia|]; split; [intros y []|now left]|].
  destruct (IH (Z.max a x)) as (H1 & H2 & H3). cbn zeta in *. split; [lia|]. split.
  - intros y [<-|Hy]; [lia|auto].
  - destruct H3 as [H3|H3]; [|right; now right]. destruct (Z.max_spec a x) as [[_ E]|[_ E]]; [right; left|left]; congruence.
Qed.
(** All additions to one feed: the list of sets of days that were added to it. *)
Definition day_sets (c : tt_counts) (f : nat) : list (list Z) :=
  map (fun t => set_bits (c_n_days c) (fun d => existsb (fun b => b d) (snd t))) (filter (fun t => Nat.eqb (fst t) f) (c_trips c)) ++
  flat_map (fun t => repeat (set_bits (c_n_days c) (fst t)) (count_occ Nat.eq_dec (snd t) f)) (c_flex c).
Definition add_days (x : feed_metrics) (trips : Z) (l : list Z) : feed_metrics :=
  let t := transport_day_metrics l in
  {| m_days := m_days x + d_count t; m_locations := m_locations x; m_trips := m_trips x + trips;
     m_first := Z.min (m_first x) (d_first t); m_last := Z.max (m_last x) (d_last t) |}.

Lemma metrics_eq (a b : feed_metrics) :
  m_days a = m_days b -> m_locations a = m_locations b -> m_trips a = m_trips b -> m_first a = m_first b -> m_last a = m_last b -> a = b.
Proof. destruct a, b; cbn. congruence. Qed.

Lemma fold_locations ls : forall m f,
  fold_left count_location ls m f =
  {| m_days := m_days (m f); m_locations := m_locations (m f) + Z.of_nat (length (filter (fun s => match s with Some x => Nat.eqb x f | None => false end) ls));
     m_trips := m_trips (m f); m_first := m_first (m f); m_last := m_last (m f) |}.
Proof.
  induction ls as [|s ls IH]; intros m f; cbn [fold_left filter length].
  - apply metrics_eq; cbn; lia.
  - rewrite IH. destruct s as [k|]; cbn [count_location].
    + unfold upd. rewrite (Nat.eqb_sym k f). destruct (Nat.eqb_spec f k) as [->|]; cbn; apply metrics_eq; cbn; lia.
    + reflexivity.
Qed.
Lemma fold_trips n ts : forall m f,
  fold_left (count_trip n) ts m f =
  fold_left (fun x t => add_days x 1 (set_bits n (fun d => existsb (fun b => b d) (snd t)))) (filter (fun t => Nat.eqb (fst t) f) ts) (m f).
Proof.
  induction ts as [|t ts IH]; intros m f; cbn [fold_left filter]; [reflexivity|]. rewrite IH.
  unfold count_trip. unfold upd. rewrite (Nat.eqb_sym (fst t) f). destruct (Nat.eqb_spec f (fst t)) as [->|]; reflexivity.
Qed.
Lemma fold_flex n fs : forall m f,
  fold_left (count_flex n) fs m f =
  fold_left (fun x l => add_days x 0 l) (flat_map (fun t => repeat (set_bits n (fst t)) (count_occ Nat.eq_dec (snd t) f)) fs) (m f).
Proof.
  assert (HI : forall l ks m f,
    fold_left (fun m' k => let x := m' k in
               upd m' k {| m_days := m_days x + d_count (transport_day_metrics l); m_locations := m_locations x; m_trips := m_trips x;
                           m_first := Z.min (m_first x) (d_first (transport_day_metrics l)); m_last := Z.max (m_last x) (d_last (transport_day_metrics l)) |}) ks m f
    = fold_left (fun x l' => add_days x 0 l') (repeat l (count_occ Nat.eq_dec ks f)) (m f)).
  { intros l. induction ks as [|k ks IH]; intros m f; cbn [fold_left]; [reflexivity|]. rewrite IH. cbn zeta. unfold upd. cbn [count_occ].
    destruct (Nat.eq_dec k f) as [->|Hne].
    - rewrite Nat.eqb_refl. cbn [repeat fold_left]. f_equal. apply metrics_eq; cbn; lia.
    - rewrite (proj2 (Nat.eqb_neq f k)) by congruence. reflexivity. }
  induction fs as [|t fs IH]; intros m f; cbn [fold_left flat_map]; [reflexivity|].
  rewrite IH, fold_left_app. unfold count_flex. cbn zeta. now rewrite HI.
Qed.
(** What additions do. *)
Lemma fold_add_days (k : Z) ls : forall x,
  let r := fold_left (fun x l => add_days x k l) ls x in
  m_days r = m_days x + sumz (map (fun l => Z.of_nat (length l)) ls) /\
  m_locations r = m_locations x /\ m_trips r = m_trips x + k * Z.of_nat (length ls) /\
  (forall b, (m_first r < b <-> m_first x < b \/ exists l, In l ls /\ fold_left Z.min l 65535 < b)) /\
  (forall b, (b < m_last r <-> b < m_last x \/ exists l, In l ls /\ b < fold_left Z.max l 0)).
Proof.
  induction ls as [|l ls IH]; intros x; cbn zeta; cbn [fold_left map length].
  - unfold sumz. cbn [fold_right]. split; [lia|]. split; [lia|]. split; [lia|].
    split; intros b; (split; [auto|intros [H|(l & [] & _)]; exact H]).
  - destruct (IH (add_days x k l)) as (H1 & H2 & H3 & H4 & H5). cbn zeta in *.
    destruct (day_metrics_gen l {| d_first := 65535; d_last := 0; d_count := 0 |}) as (M1 & M2 & M3). cbn zeta in *. cbn [d_first d_last d_count] in *.
    split; [|split; [|split; [|split]]].
    + rewrite H1. unfold add_days, transport_day_metrics. cbn [m_days]. rewrite M1. unfold sumz. cbn [fold_right]. lia.
    + rewrite H2. reflexivity.
    + rewrite H3. cbn [add_days m_trips]. rewrite Nat2Z.inj_succ. lia.
    + intros b. rewrite H4. unfold add_days, transport_day_metrics. cbn [m_first]. rewrite M2. rewrite Z.min_lt_iff. split.
      * intros [[H|H]|(l' & Hl & H)]; [now left|right; exists l; split; [now left|exact H]|right; exists l'; split; [now right|exact H]].
      * intros [H|(l' & [<-|Hl] & H)]; [left; now left|left; now right|right; eauto].
    + intros b. rewrite H5. unfold add_days, transport_day_metrics. cbn [m_last]. rewrite M3. rewrite Z.max_lt_iff. split.
      * intros [[H|H]|(l' & Hl & H)]; [now left|right; exists l; split; [now left|exact H]|right; exists l'; split; [now right|exact H]].
      * intros [H|(l' & [<-|Hl] & H)]; [left; now left|left; now right|right; eauto].
Qed.
Lemma sumz_app a b : sumz (a ++ b) = sumz a + sumz b.
Proof. unfold sumz. rewrite fold_right_app. induction a as [|x a IH]; cbn; [lia|]. rewrite IH. lia. Qed.
Lemma sumz_repeat v n : sumz (repeat v n) = v * Z.of_nat n.
Proof. unfold sumz. induction n as [|n IH]; [cbn; lia|]. cbn [repeat fold_right]. rewrite IH. lia. Qed.

Lemma map_repeat {A B} (f : A -> B) x n : map f (repeat x n) = repeat (f x) n.
Proof. induction n as [|n IH]; [reflexivity|]. cbn. now rewrite IH. Qed.

Lemma get_metrics_eq c f :
  get_metrics c f =
  fold_left (fun x l => add_days x 0 l) (flat_map (fun t => repeat (set_bits (c_n_days c) (fst t)) (count_occ Nat.eq_dec (snd t) f)) (c_flex c))
   (fold_left (fun x l => add_days x 1 l)
     (map (fun t => set_bits (c_n_days c) (fun d => existsb (fun b => b d) (snd t))) (filter (fun t => Nat.eqb (fst t) f) (c_trips c)))
     {| m_days := 0; m_locations := Z.of_nat (length (filter (fun s => match s with Some x => Nat.eqb x f | None => false end) (c_loc_src c)));
        m_trips := 0; m_first := 65535; m_last := 0 |}).
Proof.
  unfold get_metrics. rewrite fold_flex, fold_trips, fold_locations. f_equal. cbn [no_metrics m_days m_locations m_trips m_first m_last].
  generalize (filter (fun t : nat * list (nat -> bool) => Nat.eqb (fst t) f) (c_trips c)). intros l.
  cbn [Z.add]. match goal with |- fold_left _ l ?x = _ => generalize x end.
  induction l as [|t l IH]; intros x; [reflexivity|]. cbn [map fold_left]. apply IH.
Qed.
Lemma day_sets_operates c f d : Operates c f d <-> exists l, In l (day_sets c f) /\ In d l.
Proof.
  unfold Operates, day_sets. split.
  - intros (n & -> & Hn & [(bs & b & Ht & Hb & He)|(b & fs & Ht & Hf & He)]).
    + exists (set_bits (c_n_days c) (fun d => existsb (fun b => b d) bs)). split.
      * apply in_or_app. left. apply in_map_iff. exists (f, bs). split; [reflexivity|]. apply filter_In. split; [exact Ht|apply Nat.eqb_refl].
      * apply set_bits_in. exists n. split; [reflexivity|]. split; [exact Hn|]. apply existsb_exists. eauto.
    + exists (set_bits (c_n_days c) b). split.
      * apply in_or_app. right. apply in_flat_map. exists (b, fs). split; [exact Ht|]. cbn [fst snd].
        apply (count_occ_In Nat.eq_dec) in Hf. destruct (count_occ Nat.eq_dec fs f); [lia|now left].
      * apply set_bits_in. eauto.
  - intros (l & Hl & Hd). apply in_app_or in Hl. destruct Hl as [Hl|Hl].
    + apply in_map_iff in Hl. destruct Hl as ([k bs] & <- & H). apply filter_In in H. destruct H as [H E]. apply Nat.eqb_eq in E. cbn in E. subst k.
      apply set_bits_in in Hd. destruct Hd as (n & -> & Hn & He). apply existsb_exists in He. destruct He as (b & Hb & He).
      exists n. split; [reflexivity|]. split; [exact Hn|]. left. exists bs, b. auto.
    + apply in_flat_map in Hl. destruct Hl as ([b fs] & H & Hr). cbn [fst snd] in Hr.
      assert (E : l = set_bits (c_n_days c) b) by (now apply repeat_spec in Hr). subst l.
      apply set_bits_in in Hd. destruct Hd as (n & -> & Hn & He). exists n. split; [reflexivity|]. split; [exact Hn|]. right. exists b, fs.
      split; [exact H|]. split; [|exact He]. apply (count_occ_In Nat.eq_dec). destruct (count_occ Nat.eq_dec fs f); [destruct Hr|lia].
Qed.

(** * C77 *)
(** Locations and trip ids are counted once each; the days are summed over the trip ids (each with the days on which any
    transport of the trip runs) and over the flexible transports (once per id of their trip). *)
Theorem C77_counts : forall (c : tt_counts) (f : nat),
  m_locations (get_metrics c f) = Z.of_nat (length (filter (fun s => match s with Some x => Nat.eqb x f | None => false end) (c_loc_src c))) /\
  m_trips (get_metrics c f) = occ f (map fst (c_trips c)) /\
  m_days (get_metrics c f) =
    sumz (map (fun t => if Nat.eqb (fst t) f then n_days_with (c_n_days c) (fun d => existsb (fun b => b d) (snd t)) else 0) (c_trips c)) +
    sumz (map (fun t => occ f (snd t) * n_days_with (c_n_days c) (fst t)) (c_flex c)).
Proof.
  intros c f. rewrite get_metrics_eq.
  match goal with |- context [fold_left _ ?fl (fold_left _ ?tr ?base)] =>
    destruct (fold_add_days 0 fl (fold_left (fun x l => add_days x 1 l) tr base)) as (A1 & A2 & A3 & _);
    destruct (fold_add_days 1 tr base) as (B1 & B2 & B3 & _) end.
  cbn zeta in *. rewrite A1, A2, A3, B1, B2, B3. clear A1 A2 A3 B1 B2 B3. cbn [m_days m_locations m_trips].
  split; [reflexivity|]. split.
  - rewrite map_length. unfold occ. replace (0 + 1 * _ + 0 * _) with (Z.of_nat (length (filter (fun t => Nat.eqb (fst t) f) (c_trips c)))) by lia.
    f_equal. induction (c_trips c) as [|t l IH]; [reflexivity|]. cbn [filter map count_occ].
    destruct (Nat.eq_dec (fst t) f) as [E|E]; [rewrite E, Nat.eqb_refl; cbn [length]; now rewrite IH|].
    rewrite (proj2 (Nat.eqb_neq _ _) E). exact IH.
  - rewrite Z.add_0_l. f_equal.
    + rewrite map_map. induction (c_trips c) as [|t l IH]; [reflexivity|]. cbn [filter map].
      destruct (Nat.eqb (fst t) f); cbn [map]; unfold sumz in *; cbn [fold_right]; rewrite <- IH; [|reflexivity]. now rewrite set_bits_len.
    + induction (c_flex c) as [|t l IH]; [reflexivity|]. cbn [flat_map map]. rewrite map_app, sumz_app, IH.
      unfold sumz at 3. cbn [fold_right]. f_equal. rewrite map_repeat, sumz_repeat, set_bits_len. unfold occ. lia.
Qed.

(** The first and last day of a feed are the first and last day on which a trip or flexible trip of the feed operates; if
    there is none they are 65535 and 0. *)
Theorem C77_first_last : forall (c : tt_counts) (f : nat), (Z.of_nat (c_n_days c) <= 65535) ->
  let m := get_metrics c f in
  (forall d, Operates c f d -> m_first m <= d <= m_last m) /\
  ((exists d, Operates c f d) -> Operates c f (m_first m) /\ Operates c f (m_last m)) /\
  ((forall d, ~ Operates c f d) -> m_first m = 65535 /\ m_last m = 0).
Proof.
  intros c f Hd m. unfold m. rewrite get_metrics_eq.
  match goal with |- context [fold_left _ ?fl (fold_left _ ?tr ?base)] =>
    destruct (fold_add_days 0 fl (fold_left (fun x l => add_days x 1 l) tr base)) as (_ & _ & _ & A4 & A5);
    destruct (fold_add_days 1 tr base) as (_ & _ & _ & B4 & B5);
    set (r := fold_left (fun x l => add_days x 0 l) fl (fold_left (fun x l => add_days x 1 l) tr base)) in *;
    set (flex := fl) in *; set (trips := tr) in * end.
  cbn zeta in *. cbn [m_first m_last] in *.
  assert (Hsets : forall l, In l trips \/ In l flex <-> In l (day_sets c f)).
  { intros l. unfold day_sets. rewrite in_app_iff. reflexivity. }
  assert (F : forall b, m_first r < b <-> 65535 < b \/ exists l, In l (day_sets c f) /\ fold_left Z.min l 65535 < b).
  { intros b. rewrite A4, B4. setoid_rewrite <- Hsets. clear. split.
    - intros [[H|(l & Hl & H)]|(l & Hl & H)]; [now left|right; exists l; auto|right; exists l; auto].
    - intros [H|(l & [Hl|Hl] & H)]; [left; now left|left; right; eauto|right; eauto]. }
  assert (L : forall b, b < m_last r <-> b < 0 \/ exists l, In l (day_sets c f) /\ b < fold_left Z.max l 0).
  { intros b. rewrite A5, B5. setoid_rewrite <- Hsets. clear. split.
    - intros [[H|(l & Hl & H)]|(l & Hl & H)]; [now left|right; exists l; auto|right; exists l; auto].
    - intros [H|(l & [Hl|Hl] & H)]; [left; now left|left; right; eauto|right; eauto]. }
  assert (Hrange : forall l d, In l (day_sets c f) -> In d l -> 0 <= d < 65535).
  { intros l d Hl Hin. destruct (proj2 (day_sets_operates c f d) ltac:(eauto)) as (n & -> & Hn & _). lia. }
  assert (F' : forall b, b <= 65535 -> m_first r < b <-> exists d, Operates c f d /\ d < b).
  { intros b Hb. rewrite F. split.
    - intros [H|(l & Hl & H)]; [lia|]. destruct (fold_min l 65535) as (_ & _ & [E|E]); cbn zeta in E; [lia|].
      exists (fold_left Z.min l 65535). split; [|exact H]. apply day_sets_operates. eauto.
    - intros (d & Ho & Hlt). apply day_sets_operates in Ho. destruct Ho as (l & Hl & Hin). right. exists l. split; [exact Hl|].
      destruct (fold_min l 65535) as (_ & H & _). specialize (H _ Hin). cbn zeta in H. lia. }
  assert (L' : forall b, 0 <= b -> b < m_last r <-> exists d, Operates c f d /\ b < d).
  { intros b Hb. rewrite L. split.
    - intros [H|(l & Hl & H)]; [lia|]. destruct (fold_max l 0) as (_ & _ & [E|E]); cbn zeta in E; [lia|].
      exists (fold_left Z.max l 0). split; [|exact H]. apply day_sets_operates. eauto.
    - intros (d & Ho & Hlt). apply day_sets_operates in Ho. destruct Ho as (l & Hl & Hin). right. exists l. split; [exact Hl|].
      destruct (fold_max l 0) as (_ & H & _). specialize (H _ Hin). cbn zeta in H. lia. }
  assert (Hop : forall d, Operates c f d -> 0 <= d < 65535) by (intros d (n & -> & Hn & _); lia).
  assert (Fle : m_first r <= 65535). { destruct (Z_le_gt_dec (m_first r) 65535); [assumption|]. exfalso. specialize (F (m_first r)). lia. }
  assert (Lge : 0 <= m_last r). { destruct (Z_le_gt_dec 0 (m_last r)); [assumption|]. exfalso. specialize (L (m_last r)). lia. }
  assert (Hb : forall d, Operates c f d -> m_first r <= d <= m_last r).
  { intros d Ho. specialize (Hop _ Ho). split.
    - specialize (F' (d + 1) ltac:(lia)). destruct F' as [_ F']. specialize (F' ltac:(exists d; split; [exact Ho|lia])). lia.
    - destruct (Z.eq_dec d 0) as [->|]; [exact Lge|].
      specialize (L' (d - 1) ltac:(lia)). destruct L' as [_ L']. specialize (L' ltac:(exists d; split; [exact Ho|lia])). lia. }
  split; [exact Hb|]. split.
  - intros (d & Ho). pose proof (Hb _ Ho) as Hbd. pose proof (Hop _ Ho) as Hr. split.
    + destruct (F' (m_first r + 1) ltac:(lia)) as [F1 _]. destruct (F1 ltac:(lia)) as (d' & Ho' & Hlt).
      specialize (Hb _ Ho'). replace (m_first r) with d' by lia. exact Ho'.
    + destruct (Z.eq_dec (m_last r) 0) as [E|E].
      * replace (m_last r) with d by lia. exact Ho.
      * destruct (L' (m_last r - 1) ltac:(lia)) as [L1 _]. destruct (L1 ltac:(lia)) as (d' & Ho' & Hlt).
        specialize (Hb _ Ho'). replace (m_last r) with d' by lia. exact Ho'.
  - intros Hno. split.
    + destruct (Z.eq_dec (m_first r) 65535) as [E|E]; [exact E|]. exfalso. destruct (F' 65535 ltac:(lia)) as [F1 _].
      destruct (F1 ltac:(lia)) as (d & Ho & _). exact (Hno _ Ho).
    + destruct (Z.eq_dec (m_last r) 0) as [E|E]; [exact E|]. exfalso. destruct (L' 0 ltac:(lia)) as [L1 _].
      destruct (L1 ltac:(lia)) as (d & Ho & _). exact (Hno _ Ho).
Qed.

(** ** Cases *)
Definition on (l : list nat) : nat -> bool := fun d => existsb (Nat.eqb d) l.
Definition ex_counts : tt_counts := {|
  c_n_sources := 3; c_n_days := 512; c_loc_src := [None; Some 0; Some 1; Some 0]%nat;
  c_trips := [(0%nat, [on [3; 4]; on [4; 7]]%nat); (1%nat, [on [5]%nat]); (1%nat, [on [5]%nat])];
  c_flex := [(on [9; 2]%nat, [0%nat])] |}.
Example C77_example :
  map (fun f => let m := get_metrics ex_counts f in (m_locations m, m_trips m, m_days m, m_first m, m_last m)) [0; 1; 2]%nat =
  [(2, 1, 5, 2, 9); (1, 2, 2, 5, 5); (0, 0, 0, 65535, 0)].
Proof. vm_compute. reflexivity. Qed.
Example C77_example_operates : Operates ex_counts 0 9 /\ Operates ex_counts 1 5.
Proof.
  split.
  - exists 9%nat. split; [reflexivity|]. split; [cbn; lia|]. right. exists (on [9; 2]%nat), [0%nat]. cbn. auto.
  - exists 5%nat. split; [reflexivity|]. split; [cbn; lia|]. left. exists [on [5]%nat], (on [5]%nat). cbn. auto.
Qed.
(** Refuted: "the days of a feed count every vehicle once": two trip ids of one transport (the second feed above) count its
    day twice. *)
Example C77_days_counted_twice_refuted :
  let c := {| c_n_sources := 1; c_n_days := 8; c_loc_src := []; c_trips := [(0%nat, [on [5%nat]]); (0%nat, [on [5%nat]])]; c_flex := [] |} in
  m_days (get_metrics c 0%nat) = 2.
Proof. reflexivity. Qed.
