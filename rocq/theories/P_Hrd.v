(** C67: the HRD loader's day sets.  C68: its conversion of local times to UTC. *)
From Coq Require Import List Arith ZArith Bool Lia.
From Verif Require Import Hrd_Model Hrd_Bits Hrd_Spec Hrd_Utc Alt_Search.
Import ListNotations.
Local Open Scope nat_scope.

(* ------------------------------------------------------------------ *)
(** * C67: reading a bit field *)

(** The days of a bit field "…0 11 d0 d1 … 11 0…" (as bits), at most 512 bits
    after the start marker, are read back exactly. *)
Theorem C67_roundtrip : forall zeros ds pad cs,
  length ds + 2 + pad <= 512 ->
  hex_bits cs = Some (repeat false zeros ++ [true; true] ++ ds ++ [true; true] ++ repeat false pad) ->
  exists b, hex_str_to_bitset cs = Some b /\ forall x, In x b <-> nth x ds false = true.
Proof.
  intros zeros ds pad cs L H. unfold hex_str_to_bitset. rewrite H. clear H.
  set (bits := repeat false zeros ++ [true; true] ++ ds ++ [true; true] ++ repeat false pad).
  set (r := ds ++ [true; true] ++ repeat false pad).
  assert (Nz : forall k, k < zeros -> nth k bits false = false).
  { intros k K. unfold bits. rewrite app_nth1 by (rewrite repeat_length; exact K). apply nth_repeat. }
  assert (Na : forall k, nth (zeros + k) bits false = nth k ([true; true] ++ r) false).
  { intros k. unfold bits. rewrite app_nth2 by (rewrite repeat_length; lia).
    rewrite repeat_length. f_equal. lia. }
  assert (Sk : skipn (S (S zeros)) bits = r).
  { unfold bits. rewrite skipn_app, repeat_length.
    rewrite skipn_all2 by (rewrite repeat_length; lia).
    replace (S (S zeros) - zeros) with 2 by lia. reflexivity. }
  pose proof (decode_spec bits zeros) as D. cbv zeta in D. rewrite Sk in D.
  assert (P : pair_at bits zeros).
  { split; [rewrite <- (Nat.add_0_r zeros) at 1; rewrite Na; reflexivity |].
    replace (S zeros) with (zeros + 1) by lia. rewrite Na. reflexivity. }
  assert (F : forall k, k < zeros -> ~ pair_at bits k).
  { intros k K [A _]. rewrite (Nz k K) in A. discriminate. }
  assert (Lb : length bits <= zeros + 2 + kMaxDays).
  { unfold bits. rewrite !app_length, !repeat_length. cbn [length]. unfold kMaxDays. lia. }
  specialize (D P F Lb).
  assert (Nd : forall k, k < length ds -> nth k r false = nth k ds false).
  { intros k K. unfold r. apply app_nth1. exact K. }
  assert (Ne : forall k, nth (length ds + k) r false = nth k ([true; true] ++ repeat false pad) false).
  { intros k. unfold r. rewrite app_nth2 by lia. f_equal. lia. }
  assert (Pe : pair_at r (length ds)).
  { split; [rewrite <- (Nat.add_0_r (length ds)) at 1; rewrite Ne; reflexivity |].
    replace (S (length ds)) with (length ds + 1) by lia. rewrite Ne. reflexivity. }
  assert (Fe : forall k, length ds < k -> ~ pair_at r k).
  { intros k K [_ B]. replace (S k) with (length ds + (S (S (k - length ds - 1)))) in B by lia.
    rewrite Ne in B. cbn in B. rewrite nth_repeat in B. discriminate. }
  destruct (decode_bits bits) as [b |]; [| exfalso; apply (D _ Pe)].
  exists b. split; [reflexivity |]. intros x. destruct D as [e [E1 [E2 E3]]].
  assert (e = length ds).
  { destruct (lt_eq_lt_dec e (length ds)) as [[G | G] | G]; [exfalso; apply (E2 _ G Pe) | exact G |].
    exfalso. apply (Fe _ G E1). }
  subst e. rewrite E3. split.
  - intros [X1 X2]. rewrite <- Nd by exact X1. exact X2.
  - intros X. assert (X1 : x < length ds).
    { destruct (lt_dec x (length ds)) as [G | G]; [exact G |]. rewrite nth_overflow in X by lia. discriminate. }
    split; [exact X1 |]. rewrite Nd by exact X1. exact X.
Qed.

(** What any string means: the first two adjacent ones start the days, the last
    two adjacent ones after them end them. *)
Theorem C67_markers : forall cs bits s,
  hex_bits cs = Some bits ->
  nth s bits false = true -> nth (S s) bits false = true ->
  (forall k, k < s -> ~ (nth k bits false = true /\ nth (S k) bits false = true)) ->
  length bits <= s + 2 + 512 ->
  let day x := nth (s + 2 + x) bits false in
  match hex_str_to_bitset cs with
  | Some b => exists e, day e = true /\ day (S e) = true /\
      (forall k, e < k -> ~ (day k = true /\ day (S k) = true)) /\
      forall x, In x b <-> x < e /\ day x = true
  | None => forall k, ~ (day k = true /\ day (S k) = true)
  end.
Proof.
  intros cs bits s H A B F L day. unfold hex_str_to_bitset. rewrite H.
  pose proof (decode_spec bits s (conj A B) F L) as D. cbv zeta in D.
  assert (E : forall x, nth x (skipn (S (S s)) bits) false = day x).
  { intros x. unfold day. rewrite <- (firstn_skipn (S (S s)) bits) at 2.
    assert (Ls : S (S s) <= length bits).
    { destruct (le_lt_dec (S (S s)) (length bits)) as [G | G]; [exact G |].
      rewrite (nth_overflow bits) in B by lia. discriminate. }
    rewrite app_nth2 by (rewrite firstn_length; lia).
    rewrite firstn_length. f_equal. lia. }
  unfold pair_at in D. destruct (decode_bits bits) as [b |].
  - destruct D as [e [[D1 D2] [D3 D4]]]. exists e. rewrite <- !E. split; [exact D1 |]. split; [exact D2 |].
    split.
    + intros k K [K1 K2]. apply (D3 k K). rewrite !E. split; assumption.
    + intros x. rewrite D4, E. reflexivity.
  - intros k [K1 K2]. apply (D k). rewrite !E. split; assumption.
Qed.

Lemma hex_int_some : forall c d, ascii_hex_to_int c = Some d ->
  d < 16 /\ (c = 48 + d /\ d < 10 \/ c = 55 + d /\ 10 <= d \/ c = 87 + d /\ 10 <= d).
Proof.
  intros c d A. unfold ascii_hex_to_int in A.
  destruct (Nat.leb_spec 48 c), (Nat.leb_spec c 57), (Nat.leb_spec 65 c), (Nat.leb_spec c 70),
    (Nat.leb_spec 97 c), (Nat.leb_spec c 102); cbn [andb] in A;
    try discriminate; try (injection A as <-); lia.
Qed.

(** Without a start marker, or with a character that is no hexadecimal digit,
    the line is rejected. *)
Theorem C67_rejected : forall cs,
  (exists c, In c cs /\ ~ (48 <= c <= 57 \/ 65 <= c <= 70 \/ 97 <= c <= 102)) \/
  (exists bits, hex_bits cs = Some bits /\
     forall k, ~ (nth k bits false = true /\ nth (S k) bits false = true)) ->
  hex_str_to_bitset cs = None.
Proof.
  intros cs [[c [I N]] | [bits [H N]]]; unfold hex_str_to_bitset.
  - assert (E : hex_bits cs = None); [| rewrite E; reflexivity].
    induction cs as [| a cs IH]; [destruct I |]. cbn [hex_bits]. destruct I as [-> | I].
    + destruct (ascii_hex_to_int c) as [d |] eqn:A; [| reflexivity].
      apply hex_int_some in A. exfalso. lia.
    + rewrite (IH I). destruct (ascii_hex_to_int a); reflexivity.
  - rewrite H. apply decode_none_start. exact N.
Qed.

(** Every string of digits has four bits per digit, most significant first. *)
Theorem C67_digits : forall cs bits, hex_bits cs = Some bits ->
  length bits = 4 * length cs /\
  forall k c, nth_error cs k = Some c -> exists d, d < 16 /\
    (c = 48 + d /\ d < 10 \/ c = 55 + d /\ 10 <= d \/ c = 87 + d /\ 10 <= d) /\
    d = (if nth (4 * k) bits false then 8 else 0) + (if nth (4 * k + 1) bits false then 4 else 0)
      + (if nth (4 * k + 2) bits false then 2 else 0) + (if nth (4 * k + 3) bits false then 1 else 0).
Proof.
  induction cs as [| a cs IH]; intros bits H; cbn [hex_bits] in H.
  - injection H as <-. split; [reflexivity |]. intros k c K. destruct k; discriminate.
  - destruct (ascii_hex_to_int a) as [d |] eqn:A; [| discriminate].
    destruct (hex_bits cs) as [r |]; [| discriminate]. injection H as <-.
    destruct (IH r eq_refl) as [L R]. split; [cbn [length app digit_bits]; lia |].
    intros k c K. destruct k as [| k].
    + cbn in K. injection K as ->. exists d. pose proof (hex_int_some _ _ A) as D.
      split; [tauto |]. split; [tauto |]. destruct D as [D _]. clear - D.
      do 16 (destruct d as [| d]; [reflexivity |]). lia.
    + cbn [nth_error] in K. destruct (R k c K) as [d' D']. exists d'.
      replace (4 * S k) with (S (S (S (S (4 * k))))) by lia.
      cbn [app digit_bits Nat.add nth]. exact D'.
Qed.

(** "C5c0" is 11 000101 11 000000 *)
Example C67_hex_example : hex_str_to_bitset [67; 53; 99; 48] = Some [5; 3] /\
  hex_bits [67; 53; 99; 48] =
    Some (repeat false 0 ++ [true; true] ++ [false; false; false; true; false; true] ++ [true; true] ++ repeat false 6).
Proof. split; reflexivity. Qed.

(* ------------------------------------------------------------------ *)
(** * C67: splitting by traffic days *)

(** Section [i] runs on day [d]. *)
Definition section_runs (secs : list (list nat)) (d i : nat) : Prop := In d (nth i secs []).

(** Every piece is a non-empty run of sections, all of which run on each of the
    piece's days; no day occurs twice, thrown or not. *)
Theorem C67_pieces_sound : forall secs out thrown,
  expand_traffic_days secs = (out, thrown) ->
  (forall p, In p out ->
     pc_from p < pc_to p <= length secs /\ pc_days p <> [] /\
     forall d i, In d (pc_days p) -> pc_from p <= i < pc_to p -> section_runs secs d i) /\
  (forall a b pa pb d, nth_error out a = Some pa -> nth_error out b = Some pb ->
     In d (pc_days pa) -> In d (pc_days pb) -> a = b).
Proof.
  intros secs out thrown E. destruct (expand_inv _ _ _ E) as [x [I <-]].
  split; [| apply (i_disj _ _ I)].
  intros p P. destruct (i_ok _ _ I p P) as [A [B C]]. split; [exact A |]. split; [| exact C].
  intros Z. rewrite Z in B. discriminate.
Qed.

(** When each day's sections are connected and days that begin at the same
    section end at the same, nothing is thrown; the pieces span exactly the
    sections their days run on; and a day that begins at section [k] is loaded
    if and only if some day begins at each of the sections up to [k]. *)
Theorem C67_split_exact : forall secs out thrown,
  let begins d i := section_runs secs d i /\ forall j, j < i -> ~ section_runs secs d j in
  (forall d i j k, section_runs secs d i -> section_runs secs d k -> i <= j <= k -> section_runs secs d j) ->
  (forall d d' i k, begins d i -> begins d' i -> section_runs secs d k -> section_runs secs d' k) ->
  expand_traffic_days secs = (out, thrown) ->
  thrown = false /\
  (forall d p, In p out -> In d (pc_days p) ->
     forall k, section_runs secs d k <-> pc_from p <= k < pc_to p) /\
  (forall d k, begins d k ->
     ((exists p, In p out /\ In d (pc_days p)) <-> (forall j, j <= k -> exists d', begins d' j))).
Proof.
  intros secs out thrown begins C S E.
  destruct (expand_exact secs C S out thrown E) as [A [B D]].
  destruct (C67_pieces_sound secs out thrown E) as [F _].
  split; [exact A |]. split; [| exact D].
  intros d p P I k. split.
  - apply (proj2 (B d p P I)).
  - apply (proj2 (proj2 (F p P)) d k I).
Qed.

(** Traffic days for the whole service: one piece with all of it. *)
Theorem C67_begin_to_end : forall n_stops b secs, 2 <= n_stops -> b <> [] ->
  expand_traffic_days (section_days n_stops (Some b) secs) =
    ([{| pc_days := fold_left band (repeat b (n_stops - 2)) b; pc_from := 0; pc_to := n_stops - 1 |}], false) /\
  forall d, In d (fold_left band (repeat b (n_stops - 2)) b) <-> In d b.
Proof.
  intros n_stops b secs L N. unfold section_days.
  replace (n_stops - 1) with (S (n_stops - 2)) by lia.
  generalize (n_stops - 2). intros n.
  assert (K : forall m c, (forall d, In d c <-> In d b) ->
             forall d, In d (fold_left band (repeat b m) c) <-> In d b).
  { induction m as [| m IH]; intros c Hc; cbn [repeat fold_left]; [exact Hc |].
    apply IH. intros d. rewrite In_band, Hc. tauto. }
  split; [| apply K; reflexivity].
  assert (Nb : bnone b = false) by (destruct b; [congruence | reflexivity]).
  assert (Sc : forall m c i, (forall d, In d c <-> In d b) ->
             split_scan (repeat b m) c i = (fold_left band (repeat b m) c, i + m)).
  { induction m as [| m IH]; intros c i Hc; cbn [repeat split_scan fold_left]; [f_equal; lia |].
    assert (Hc' : forall d, In d (band c b) <-> In d b) by (intros d; rewrite In_band, Hc; tauto).
    assert (Z : bnone (band c b) = false).
    { apply bnone_false. apply bnone_false in Nb. destruct Nb as [x X]. exists x. apply Hc'. exact X. }
    rewrite Z, (IH _ (S i) Hc'). f_equal. lia. }
  unfold expand_traffic_days. rewrite repeat_length. cbn [seq expand_loop x_secs repeat nth skipn].
  rewrite Nb, (Sc n b 1) by reflexivity.
  set (cur := fold_left band (repeat b n) b) in *.
  assert (Hcur : forall d, In d cur <-> In d b) by (apply K; reflexivity).
  assert (Zc : bnone cur = false).
  { apply bnone_false. apply bnone_false in Nb. destruct Nb as [x X]. exists x. apply Hcur. exact X. }
  unfold consume_and_remove. rewrite Zc. cbn [negb andb x_consumed x_secs x_out].
  replace (0 <? 1 + n) with true by reflexivity.
  assert (Be : bnone (band cur []) = true).
  { apply bnone_true. intros x X. apply In_band in X. destruct X as [_ []]. }
  rewrite Be. cbn [app]. replace (1 + n) with (S n) by lia.
  destruct n as [| n]; [reflexivity |]. cbn [seq expand_loop x_secs x_out].
  assert (Z1 : bnone (nth 1 (remove_days (b :: b :: repeat b n) cur 0 0 (S (S n))) []) = true).
  { apply bnone_true. intros x X. apply (remove_sec (b :: b :: repeat b n)) in X.
    destruct X as [X1 X2]. apply X2. split; [lia |]. apply Hcur. exact X1. }
  unfold sec in Z1. cbn [repeat] in *. rewrite Z1. reflexivity.
Qed.

(** Days 1 and 2 on the first two sections, day 3 on the last two *)
Example C67_split_example :
  let secs := [[1; 2]; [1; 2; 3]; [3]] in
  exists out, expand_traffic_days secs = (out, false) /\
    (forall d k, In d [1; 2] -> section_runs secs d k -> k < 2) /\
    map (fun p => (pc_from p, pc_to p)) out = [(0, 2); (1, 3)] /\
    forall d, In d [1; 2; 3] -> exists p, In p out /\ In d (pc_days p).
Proof.
  cbv zeta. eexists. split; [vm_compute; reflexivity |]. split; [| split; [reflexivity |]].
  - intros d k D R. destruct k as [| [| [| k]]]; try lia; unfold section_runs in R; cbn in R, D.
    + destruct R as [<- | []]. destruct D as [D | [D | []]]; discriminate.
    + destruct k; destruct R.
  - intros d [<- | [<- | [<- | []]]].
    + eexists. split; [left; reflexivity | cbn; auto].
    + eexists. split; [left; reflexivity | cbn; auto].
    + eexists. split; [right; left; reflexivity | cbn; auto].
Qed.

(** A service that runs on day 1 as far as section 1 and on day 2 only in the
    last section: section 1 has no day of its own, and the loader stops there.
    Day 2 is lost without a message. *)
Theorem C67_split_lost_refuted :
  let secs := [[1]; [1]; [2]] in
  (forall d i j k, section_runs secs d i -> section_runs secs d k -> i <= j <= k -> section_runs secs d j) /\
  section_runs secs 2 2 /\
  expand_traffic_days secs = ([{| pc_days := [1]; pc_from := 0; pc_to := 2 |}], false).
Proof.
  cbv zeta. split; [| split; [cbn; auto | reflexivity]].
  assert (D : forall d i, section_runs [[1]; [1]; [2]] d i <-> (d = 1 /\ i < 2) \/ (d = 2 /\ i = 2)).
  { intros d i. unfold section_runs. destruct i as [| [| [| i]]]; cbn.
    - split; [intros [<- | []]; lia | intros H; left; lia].
    - split; [intros [<- | []]; lia | intros H; left; lia].
    - split; [intros [<- | []]; lia | intros H; left; lia].
    - split; [destruct i; intros [] | lia]. }
  intros d i j k A B C. apply D in A. apply D in B. apply D. lia.
Qed.

(** A service that on day 2 runs only in the first section and on day 1 in
    both: day 2 is lost. *)
Theorem C67_split_prefix_refuted :
  let secs := [[1; 2]; [1]] in
  section_runs secs 2 0 /\
  expand_traffic_days secs = ([{| pc_days := [1]; pc_from := 0; pc_to := 2 |}], false).
Proof. cbv zeta. split; [cbn; auto | reflexivity]. Qed.

(** A section left out on a day: the exception comes after the first piece was
    handed on, the rest of the service is dropped. *)
Theorem C67_split_gap_refuted :
  let secs := [[1]; [2]; [1]] in
  section_runs secs 1 2 /\
  expand_traffic_days secs =
    ([{| pc_days := [1]; pc_from := 0; pc_to := 1 |}; {| pc_days := [2]; pc_from := 1; pc_to := 2 |}], true).
Proof. cbv zeta. split; [cbn; auto | reflexivity]. Qed.

(* ------------------------------------------------------------------ *)
(** * C68: local times to UTC *)

Local Open Scope Z_scope.

(** The conversion of one time: accepted exactly when the clocks of the zone
    show it at some instant and it is not the moment at which they are set
    forward; the result is the first such instant. *)
Theorem C68_conversion : forall z day mam, wf_tz z ->
  let '(m, doff, valid) := local_to_utc z day mam true in
  (valid = true <->
     (exists u, shows z u (day + mam)) /\ ~ at_season_start z (day + mam)) /\
  (valid = true -> first_shows z (day + mam) (day + doff + m) /\ doff mod 1440 = 0 /\
     (0 <= mam -> 0 <= m < 1440)).
Proof.
  intros z day mam W. destruct (local_to_utc z day mam true) as [[m doff] valid] eqn:E.
  destruct (local_to_utc_first _ _ _ _ _ _ E) as [V Q].
  assert (K : valid = true -> ev_instant z (day + mam) (day + doff + m)).
  { intros T. destruct (Q T) as [Q1 _]. apply (valid_iff _ _ _ W). split; [congruence | lia]. }
  split.
  - split.
    + intros T. destruct (K T) as [[A _] B]. split; [exists (day + doff + m); exact A | exact B].
    + intros [[u A] B]. destruct valid; [reflexivity |]. exfalso.
      unfold the_valid in V. pose proof (find_season z (day + mam)) as F.
      pose proof (shows_cases z u _ W A) as C.
      destruct (find (in_season (day + mam)) (tz_seasons z)) as [s |]; [| discriminate].
      destruct F as [I L]. symmetry in V. apply Z.ltb_ge in V.
      pose proof (wz_long _ W s I). pose proof (wz_shift _ W s I).
      destruct C as [[-> C] | [-> C]]; [| lia].
      apply B. exists s. split; [exact I | lia].
  - intros T. destruct (K T) as [A _]. split; [exact A |]. destruct (Q T) as [Q1 [Q2 Q3]].
    split; [exact Q2 |]. intros P. apply Q3. pose proof (the_utc_range z (day + mam) W). lia.
Qed.

Section Service.
  Variable tz_of : nat -> tz.
  Variable track : nat -> nat -> Z -> Z -> nat.
  Variables (hrd_from hrd_to sel_from sel_to : Z) (v : hservice).

  (** Sections [from, to) exist, their zones are sane, and their times, for
      repetition [rep], are not negative. *)
  Definition piece_ok (from to rep : nat) : Prop :=
    (from < to)%nat /\ (to < length (hv_stops v))%nat /\
    (forall s, In s (hv_stops v) -> wf_tz (tz_of (hs_eva s))) /\
    forall m a b, (from <= m < to)%nat -> nth_error (hv_stops v) m = Some a ->
      nth_error (hv_stops v) (m + 1) = Some b ->
      0 <= hs_dep a + Z.of_nat rep * hv_interval v /\ 0 <= hs_arr b + Z.of_nat rep * hv_interval v.

  Lemma piece_nth : forall from to m, (m < S to - from)%nat ->
    nth_error (piece_stops v from to) m = nth_error (hv_stops v) (from + m).
  Proof.
    intros from to m L. unfold piece_stops. rewrite nth_error_firstn, nth_error_skipn.
    destruct (Nat.ltb_spec m (S to - from)); [reflexivity | lia].
  Qed.
  Lemma piece_len : forall from to rep, piece_ok from to rep -> length (piece_stops v from to) = S (to - from).
  Proof.
    intros from to rep [A [B _]]. unfold piece_stops. rewrite firstn_length, skipn_length. lia.
  Qed.

  Let evs from to rep := combine (local_times v from to rep) (pair_tzs tz_of (piece_stops v from to)).

  Lemma evs_fine : forall from to rep, piece_ok from to rep ->
    (forall e, In e (evs from to rep) -> wf_tz (snd e) /\ 0 <= fst e) /\ evs from to rep <> [].
  Proof.
    intros from to rep P. pose proof (piece_len _ _ _ P) as Len. destruct P as [A [B [W Tm]]].
    split.
    - intros e I. unfold evs, local_times in I. apply pair_in in I.
      destruct I as [m [a [b [N1 [N2 I]]]]].
      assert (M : (m + 1 < S (to - from))%nat).
      { rewrite <- Len. apply nth_error_Some. rewrite N2. discriminate. }
      rewrite piece_nth in N1 by lia. rewrite piece_nth in N2 by lia.
      rewrite Nat.add_assoc in N2.
      destruct (Tm (from + m)%nat a b) as [T1 T2]; [lia | exact N1 | exact N2 |].
      apply nth_error_In in N1, N2.
      destruct I as [-> | ->]; cbn [fst snd]; split; auto.
    - unfold evs, local_times. destruct (piece_stops v from to) as [| a [| b r]]; cbn in Len |- *; try lia; discriminate.
  Qed.

  Lemma trip_instants_iff : forall from to rep day us, piece_ok from to rep ->
    (nondecreasing us /\ Forall2 (ev_ok day 0) (evs from to rep) us) <->
    trip_instants tz_of v from to rep day us.
  Proof.
    intros from to rep day us P. pose proof (piece_len _ _ _ P) as Len. destruct P as [A [B _]].
    unfold evs, local_times, trip_instants. rewrite pair_events, Len.
    replace (S (to - from) - 1)%nat with (to - from)%nat by lia.
    assert (X : (forall m, (m < to - from)%nat -> exists a b,
       nth_error (piece_stops v from to) m = Some a /\ nth_error (piece_stops v from to) (m + 1) = Some b /\
       ev_instant (tz_of (hs_eva a)) (day + (hs_dep a + Z.of_nat rep * hv_interval v)) (0 + nth (2 * m) us 0) /\
       ev_instant (tz_of (hs_eva b)) (day + (hs_arr b + Z.of_nat rep * hv_interval v)) (0 + nth (2 * m + 1) us 0)) <->
      (forall m, (m < to - from)%nat -> exists a b,
       nth_error (hv_stops v) (from + m) = Some a /\ nth_error (hv_stops v) (from + m + 1) = Some b /\
       ev_instant (tz_of (hs_eva a)) (day + hs_dep a + Z.of_nat rep * hv_interval v) (nth (2 * m) us 0) /\
       ev_instant (tz_of (hs_eva b)) (day + hs_arr b + Z.of_nat rep * hv_interval v) (nth (2 * m + 1) us 0))).
    { split; intros H m M; destruct (H m M) as [a [b [N1 [N2 [N3 N4]]]]]; exists a, b.
      - rewrite piece_nth in N1 by lia. rewrite piece_nth, Nat.add_assoc in N2 by lia.
        rewrite !Z.add_assoc in N3, N4. rewrite Z.add_0_l in N3, N4.
        split; [exact N1 |]. split; [exact N2 |]. split; assumption.
      - rewrite !piece_nth by lia. rewrite Nat.add_assoc, !Z.add_assoc, !Z.add_0_l.
        split; [exact N1 |]. split; [exact N2 |]. split; assumption. }
    rewrite X. tauto.
  Qed.

  (** The loaded vehicles of one piece and one repetition depart exactly at the
      instants of its service days (from the first day of the timetable on),
      each service day once. *)
  Theorem C68_exact : forall from to days rep, piece_ok from to rep ->
    let out := to_utc tz_of track hrd_from hrd_to sel_from sel_to v from to days rep in
    (forall us ss, In (us, ss) (loaded_trips sel_from out) <->
       exists i, hrd_from + Z.of_nat i < hrd_to /\ In i days /\
         meets_selection sel_from sel_to v to rep (hrd_from + Z.of_nat i) /\
         trip_instants tz_of v from to rep ((hrd_from + Z.of_nat i) * 1440) us /\
         (sel_from - kTimetableOffset) * 1440 <= List.hd 0 us /\
         ss = build_stop_seq track v from to (local_times v from to rep) (Z.of_nat i)) /\
    NoDup (map fst (loaded_trips sel_from out)).
  Proof.
    intros from to days rep P out. destruct (evs_fine from to rep P) as [W Ne].
    destruct (days_exact hrd_from sel_from sel_to days (evs from to rep)
                (build_stop_seq track v from to (local_times v from to rep)) W
                (Z.to_nat (hrd_to - hrd_from)) Ne) as [A B].
    split; [| exact B]. intros us ss. unfold out, to_utc. cbv zeta. fold (evs from to rep).
    rewrite A. clear A B.
    assert (Ms : forall i, (sel_from < hrd_from + Z.of_nat i +
          (1 + fst (List.last (evs from to rep) (0, {| tz_off := 0; tz_seasons := [] |})) / 1440) /\
          hrd_from + Z.of_nat i < sel_to) <->
        meets_selection sel_from sel_to v to rep (hrd_from + Z.of_nat i)).
    { intros i. pose proof (piece_len _ _ _ P) as Len. destruct P as [P1 [P2 _]].
      destruct (nth_error (hv_stops v) to) as [z |] eqn:Z0;
        [| exfalso; apply nth_error_None in Z0; lia].
      unfold evs, local_times. rewrite (pair_last tz_of (piece_stops v from to) (Z.of_nat rep * hv_interval v) z).
      - unfold meets_selection. split.
        + intros [H1 H2]. exists z. split; [exact Z0 |]. lia.
        + intros [z' [H0 H]]. rewrite Z0 in H0. injection H0 as <-. lia.
      - lia.
      - rewrite Len, piece_nth by lia. replace (from + (S (to - from) - 1))%nat with to by lia. exact Z0. }
    split.
    - intros [i [[L [Di [Ov S1]]] [S2 S3]]]. exists i.
      split; [lia |]. split; [exact Di |]. split; [apply Ms; exact Ov |].
      split; [apply trip_instants_iff; assumption |]. split; assumption.
    - intros [i [L [Di [Ov [T [G E]]]]]]. exists i. split; [| split; assumption].
      apply (trip_instants_iff _ _ _ _ _ P) in T. destruct T as [T1 T2].
      split; [lia |]. split; [exact Di |]. split; [apply Ms; exact Ov |]. split; assumption.
  Qed.

  (** Different service days never share their instants, and a service day has
      at most one list of instants. *)
  Theorem C68_days_apart : forall from to rep day day' us us', piece_ok from to rep ->
    trip_instants tz_of v from to rep day us ->
    (trip_instants tz_of v from to rep day' us -> day = day') /\
    (trip_instants tz_of v from to rep day us' -> us = us').
  Proof.
    intros from to rep day day' us us' P T. pose proof P as [P1 [P2 [W _]]].
    destruct T as [L [N H]]. split.
    - intros [_ [_ H']]. destruct (H 0%nat) as [a [b [A1 [_ [A3 _]]]]]; [lia |].
      destruct (H' 0%nat) as [a' [b' [B1 [_ [B3 _]]]]]; [lia |].
      rewrite A1 in B1. injection B1 as <-.
      pose proof (ev_instant_fun _ _ _ _ (W a (nth_error_In _ _ A1)) A3 B3). lia.
    - intros [L' [_ H']]. apply nth_ext with (d := 0) (d' := 0); [congruence |].
      intros k K. rewrite L in K.
      destruct (Nat.Even_or_Odd k) as [[m ->] | [m ->]].
      + destruct (H m) as [a [b [A1 [_ [A3 _]]]]]; [lia |].
        destruct (H' m) as [a' [b' [B1 [_ [B3 _]]]]]; [lia |].
        rewrite A1 in B1. injection B1 as <-.
        apply (ev_instant_det _ _ _ _ (W a (nth_error_In _ _ A1)) A3 B3).
      + destruct (H m) as [a [b [_ [A1 [_ A3]]]]]; [lia |].
        destruct (H' m) as [a' [b' [_ [B1 [_ B3]]]]]; [lia |].
        rewrite A1 in B1. injection B1 as <-.
        apply (ev_instant_det _ _ _ _ (W b (nth_error_In _ _ A1)) A3 B3).
  Qed.

  (** The whole service: the trips of each piece and each repetition. *)
  Theorem C68_service : forall bte secs us ss,
    (forall p rep, In p (fst (expand_traffic_days (section_days (length (hv_stops v)) bte secs))) ->
       (rep <= hv_reps v)%nat -> piece_ok (pc_from p) (pc_to p) rep) ->
    (In (us, ss) (loaded_trips sel_from
        (expand_service tz_of track hrd_from hrd_to sel_from sel_to v bte secs)) <->
     exists p rep i, In p (fst (expand_traffic_days (section_days (length (hv_stops v)) bte secs))) /\
       (rep <= hv_reps v)%nat /\
       hrd_from + Z.of_nat i < hrd_to /\ In i (pc_days p) /\
       meets_selection sel_from sel_to v (pc_to p) rep (hrd_from + Z.of_nat i) /\
       trip_instants tz_of v (pc_from p) (pc_to p) rep ((hrd_from + Z.of_nat i) * 1440) us /\
       (sel_from - kTimetableOffset) * 1440 <= List.hd 0 us /\
       ss = build_stop_seq track v (pc_from p) (pc_to p)
              (local_times v (pc_from p) (pc_to p) rep) (Z.of_nat i)).
  Proof.
    intros bte secs us ss H. unfold expand_service, loaded_trips.
    rewrite in_flat_map. split.
    - intros [kb [I J]]. apply in_flat_map in I. destruct I as [p [Ip I]].
      apply in_flat_map in I. destruct I as [rep [Ir I]]. apply in_seq in Ir.
      assert (Pk : piece_ok (pc_from p) (pc_to p) rep) by (apply H; [exact Ip | lia]).
      destruct (proj1 (proj1 (C68_exact _ _ (pc_days p) rep Pk) us ss)) as [i R].
      { unfold loaded_trips. apply in_flat_map. exists kb. split; assumption. }
      exists p, rep, i. split; [exact Ip |]. split; [lia | exact R].
    - intros [p [rep [i [Ip [Ir R]]]]].
      assert (Pk : piece_ok (pc_from p) (pc_to p) rep) by (apply H; [exact Ip | lia]).
      pose proof (proj2 (proj1 (C68_exact _ _ (pc_days p) rep Pk) us ss) (ex_intro _ i R)) as J.
      unfold loaded_trips in J. apply in_flat_map in J. destruct J as [kb [J1 J2]].
      exists kb. split; [| exact J2]. apply in_flat_map. exists p. split; [exact Ip |].
      apply in_flat_map. exists rep. split; [apply in_seq; lia | exact J1].
  Qed.

  Lemma pair_times_nth : forall stops add m a b,
    nth_error stops m = Some a -> nth_error stops (m + 1) = Some b ->
    nth (2 * m) (pair_times stops add) 0 = hs_dep a + add /\
    nth (2 * m + 1) (pair_times stops add) 0 = hs_arr b + add.
  Proof.
    induction stops as [| x [| y r] IH]; intros add m a b A B.
    - destruct m; discriminate.
    - destruct m as [| m]; [discriminate |]. destruct m; discriminate.
    - change (pair_times (x :: y :: r) add) with ((hs_dep x + add) :: (hs_arr y + add) :: pair_times (y :: r) add).
      destruct m as [| m].
      + cbn in A, B. injection A as <-. injection B as <-. split; reflexivity.
      + cbn [nth_error Nat.add] in A, B. destruct (IH add m a b A B) as [H1 H2].
        replace (2 * S m)%nat with (S (S (2 * m))) by lia.
        replace (S (S (2 * m)) + 1)%nat with (S (S (2 * m + 1))) by lia. split; assumption.
  Qed.

  (** The stop sequence of service day [i]: each stop's track is the one valid
      for its departure — at the last stop, its arrival — on the local calendar
      day of that time, for the train number of the section that leaves it (the
      last: that reaches it), if the piece starts at the first stop or the
      service has one train number. *)
  Theorem C68_stops : forall from to rep i k s, piece_ok from to rep ->
    (from = 0%nat \/ hv_nr v <> None) ->
    (k <= to - from)%nat -> nth_error (hv_stops v) (from + k) = Some s ->
    (hv_nr v = None -> length (hv_sections v) = (length (hv_stops v) - 1)%nat) ->
    let section := (from + k - (if Nat.eqb k (to - from) then 1 else 0))%nat in
    let local := (if Nat.eqb k (to - from) then hs_arr s else hs_dep s) + Z.of_nat rep * hv_interval v in
    exists nr,
      nth_error (build_stop_seq track v from to (local_times v from to rep) (Z.of_nat i)) k =
        Some (Some (track (hs_eva s) nr (local mod 1440) (Z.of_nat i + local / 1440), hs_in s, hs_out s)) /\
      match hv_nr v with Some n => nr = n | None => nth_error (hv_sections v) section = Some nr end.
  Proof.
    intros from to rep i k s P Fr K N Ls section local. pose proof P as [P1 [P2 _]].
    pose proof (piece_len _ _ _ P) as Len.
    unfold build_stop_seq.
    assert (Q : nth_error (seq 0 (S to - from)) k = Some k).
    { rewrite (nth_error_nth' _ 0%nat) by (rewrite seq_length; lia). rewrite seq_nth by lia. reflexivity. }
    rewrite (map_nth_error _ _ _ Q). unfold stop_at. rewrite N.
    unfold train_nr_at. replace (S to - from - 1)%nat with (to - from)%nat by lia.
    assert (T : nth (k * 2 - (if Nat.eqb k (to - from) then 1 else 0)) (local_times v from to rep) 0 = local).
    { unfold local, local_times.
      destruct (Nat.eqb_spec k (to - from)) as [E | E].
      - destruct (nth_error (hv_stops v) (from + k - 1)) as [a |] eqn:Na;
          [| apply nth_error_None in Na; lia].
        destruct (pair_times_nth (piece_stops v from to) (Z.of_nat rep * hv_interval v) (k - 1) a s) as [_ H].
        + rewrite piece_nth by lia. replace (from + (k - 1))%nat with (from + k - 1)%nat by lia. exact Na.
        + rewrite piece_nth by lia. replace (from + (k - 1 + 1))%nat with (from + k)%nat by lia. exact N.
        + replace (k * 2 - 1)%nat with (2 * (k - 1) + 1)%nat by lia. exact H.
      - destruct (nth_error (hv_stops v) (from + k + 1)) as [b |] eqn:Nb;
          [| apply nth_error_None in Nb; lia].
        destruct (pair_times_nth (piece_stops v from to) (Z.of_nat rep * hv_interval v) k s b) as [H _].
        + rewrite piece_nth by lia. exact N.
        + rewrite piece_nth by lia. rewrite Nat.add_assoc. exact Nb.
        + replace (k * 2 - 0)%nat with (2 * k)%nat by lia. exact H. }
    destruct (hv_nr v) as [n |].
    - exists n. split; [| reflexivity]. rewrite T. reflexivity.
    - destruct Fr as [-> | Fr]; [| congruence]. specialize (Ls eq_refl).
      cbn [Nat.add] in *. fold section.
      destruct (nth_error (hv_sections v) section) as [nr |] eqn:Ns.
      + exists nr. split; [| reflexivity]. rewrite T. reflexivity.
      + exfalso. apply nth_error_None in Ns. unfold section in Ns.
        destruct (Nat.eqb_spec k (to - 0)); lia.
  Qed.
End Service.

(** Central European time in a year whose day 88 is the last Sunday of March
    and whose day 298 the last of October *)
Definition cet : tz :=
  {| tz_off := 60;
     tz_seasons := [{| sn_begin := 88 * 1440 + 120; sn_end := 298 * 1440 + 180; sn_off := 120 |}] |}.

Lemma cet_wf : wf_tz cet.
Proof.
  constructor; unfold cet; cbn [tz_seasons tz_off].
  - intros s [<- | []]. cbn. lia.
  - intros s [<- | []]. cbn. lia.
  - intros s s' [<- | []] [<- | []] N. congruence.
  - split; [lia |]. intros s [<- | []]. cbn. lia.
Qed.

(** A night train, 23:30 to 00:30 of the following day, twice *)
Definition night : hservice :=
  {| hv_stops := [{| hs_eva := 1; hs_arr := -1; hs_dep := 1410; hs_out := false; hs_in := true |};
                  {| hs_eva := 2; hs_arr := 1470; hs_dep := -1; hs_out := true; hs_in := false |}];
     hv_reps := 1; hv_interval := 20; hv_nr := Some 7%nat; hv_sections := [] |}.

Example C68_example :
  (forall rep, piece_ok (fun _ => cet) night 0 1 rep) /\
  map (fun kb => (fst (fst kb), snd kb))
    (expand_service (fun _ => cet) (fun e _ _ _ => e) 80 100 85 95 night (Some [7; 8]%nat) []) =
    [([1350; 1410], [7%nat]); ([1290; 1350], [8%nat]); ([1370; 1430], [7%nat]); ([1310; 1370], [8%nat])] /\
  trip_instants (fun _ => cet) night 0 1 0 (87 * 1440) [87 * 1440 + 1350; 87 * 1440 + 1410].
Proof.
  assert (Pk : forall rep, piece_ok (fun _ => cet) night 0 1 rep).
  { intros rep. split; [lia |]. split; [cbn; lia |]. split; [intros; apply cet_wf |].
    intros m a b M A B. assert (m = 0)%nat by lia. subst m. cbn in A, B.
    injection A as <-. injection B as <-. cbn [hs_dep hs_arr hv_interval night]. lia. }
  split; [exact Pk |]. split; [vm_compute; reflexivity |].
  apply (trip_instants_iff (fun _ => cet) (fun e _ _ _ => e) 80 night 0 1 0 _ _ (Pk 0%nat)).
  split; [cbn; lia |].
  destruct (evs_fine (fun _ => cet) (fun e _ _ _ => e) night 0 1 0 (Pk 0%nat)) as [W _].
  pose proof (build_iff _ (87 * 1440) [1350; 1410] 0 W) as [B _].
  destruct B as [B _]; [vm_compute; reflexivity |].
  apply ev_ok_map in B. exact B.
Qed.

(** A train that leaves at 03:00 on the day the clocks go forward: the clocks
    show 03:00, but the loader takes the time for one that does not exist and
    drops the service day. *)
Definition early : hservice :=
  {| hv_stops := [{| hs_eva := 1; hs_arr := -1; hs_dep := 180; hs_out := false; hs_in := true |};
                  {| hs_eva := 2; hs_arr := 240; hs_dep := -1; hs_out := true; hs_in := false |}];
     hv_reps := 0; hv_interval := 0; hv_nr := Some 7%nat; hv_sections := [] |}.

Theorem C68_season_start_refuted :
  first_shows cet (88 * 1440 + 180) (88 * 1440 + 60) /\
  expand_service (fun _ => cet) (fun e _ _ _ => e) 80 100 85 95 early (Some [8%nat]) [] = [].
Proof.
  split; [| vm_compute; reflexivity].
  split.
  - exists 120. split; [| lia]. left. eexists. split; [left; reflexivity |].
    split; [unfold in_force; cbn; lia | reflexivity].
  - intros u [o [[[s [[<- | []] [F ->]]] | [N ->]] E]]; cbn in *.
    + lia.
    + assert (Q : ~ in_force cet u (List.hd {| sn_begin := 0; sn_end := 0; sn_off := 0 |} (tz_seasons cet))).
      { apply N. left. reflexivity. }
      unfold in_force in Q. cbn in Q. lia.
Qed.

(** A service whose sections have their own train numbers and whose second
    piece starts at stop 1: its platforms are looked up with the train number of
    a section beyond the last, or of a wrong one. *)
Definition three : hservice :=
  {| hv_stops := [{| hs_eva := 1; hs_arr := -1; hs_dep := 600; hs_out := false; hs_in := true |};
                  {| hs_eva := 2; hs_arr := 620; hs_dep := 630; hs_out := true; hs_in := true |};
                  {| hs_eva := 3; hs_arr := 640; hs_dep := 650; hs_out := true; hs_in := true |};
                  {| hs_eva := 4; hs_arr := 660; hs_dep := -1; hs_out := true; hs_in := false |}];
     hv_reps := 0; hv_interval := 0; hv_nr := None; hv_sections := [10; 20; 30]%nat |}.

Theorem C68_split_track_refuted :
  fst (expand_traffic_days [[1]; [2]; [2]]%nat) =
    [{| pc_days := [1]; pc_from := 0; pc_to := 1 |}; {| pc_days := [2]; pc_from := 1; pc_to := 3 |}]%nat /\
  build_stop_seq (fun _ nr _ _ => nr) three 1 3 (local_times three 1 3 0) 2 =
    [Some (30%nat, true, true); None; None].
Proof. split; reflexivity. Qed.
