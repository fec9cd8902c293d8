(** C12 (stop sequence numbers) and C13 (time dependent footpaths). *)
From Coq Require Import ZArith List Bool Lia Arith Sorted.
From Verif Require Import Time_Model Seq_Model.
Import ListNotations.
Local Open Scope Z_scope.

(** * C12 *)
(** [start, start + inc, ...] in 16 bit arithmetic *)
Fixpoint progression (n : nat) (start inc : Z) : list Z :=
  match n with O => [] | S n' => start :: progression n' (to_u16 (start + inc)) inc end.

Lemma is_based_progression l : forall start inc, is_based l start inc = true <-> l = progression (length l) start inc.
Proof.
  induction l as [|x l IH]; intros start inc; cbn; [tauto|].
  destruct (Z.eqb_spec x start) as [->|Hne]; cbn [negb].
  - rewrite IH. split; [intros <-; reflexivity|intros [= H]; exact H].
  - split; [discriminate|intros [= H]; congruence].
Qed.

Lemma to_u16_add a b : to_u16 (to_u16 a + b) = to_u16 (a + b).
Proof. unfold to_u16. now rewrite Zplus_mod_idemp_l. Qed.
Lemma to_u16_id a : 0 <= a < 65536 -> to_u16 a = a.
Proof. intros. unfold to_u16. now rewrite Z.mod_small. Qed.

Lemma iterate_compact inc n : forall curr fuel, (n <= fuel)%nat -> 0 <= curr < 65536 ->
  iterate fuel (Compact curr inc (Z.of_nat n)) (Compact (to_u16 (curr + Z.of_nat n * inc)) inc 0)
  = Some (progression n curr inc).
Proof.
  induction n as [|n IH]; intros curr fuel Hf Hc.
  - replace (curr + Z.of_nat 0 * inc) with curr by lia. rewrite to_u16_id by lia.
    destruct fuel; cbn [iterate iter_eqb]; rewrite !Z.eqb_refl; reflexivity.
  - destruct fuel as [|fuel]; [lia|]. cbn [iterate iter_eqb].
    replace (Z.of_nat (S n) =? 0) with false by (symmetry; apply Z.eqb_neq; lia). rewrite !andb_false_r.
    cbn [iter_deref iter_next]. replace (Z.of_nat (S n) >=? 1) with true by (symmetry; apply Z.geb_le; lia).
    replace (Z.of_nat (S n) - 1) with (Z.of_nat n) by lia.
    specialize (IH (to_u16 (curr + inc)) fuel ltac:(lia) ltac:(apply Z.mod_pos_bound; lia)).
    rewrite to_u16_add in IH. replace (curr + inc + Z.of_nat n * inc) with (curr + Z.of_nat (S n) * inc) in IH by lia.
    rewrite IH. reflexivity.
Qed.
Lemma iterate_full s : forall k i fuel, (i + k = length s)%nat -> (k <= fuel)%nat ->
  iterate fuel (Full i s) (Full (length s) s) = Some (skipn i s).
Proof.
  induction k as [|k IH]; intros i fuel Hi Hf.
  - assert (i = length s) by lia. subst i. rewrite skipn_all. destruct fuel; cbn [iterate iter_eqb]; rewrite !Nat.eqb_refl; reflexivity.
  - destruct fuel as [|fuel]; [lia|]. cbn [iterate iter_eqb].
    replace (Nat.eqb i (length s)) with false by (symmetry; apply Nat.eqb_neq; lia). cbn [andb].
    cbn [iter_deref iter_next]. rewrite (proj2 (Nat.ltb_lt _ _)) by lia.
    rewrite (IH (S i)) by lia.
    assert (E : skipn i s = nth i s 0 :: skipn (S i) s).
    { clear - Hi. revert i Hi. induction s as [|y s IHs]; intros i Hi; cbn in Hi; [lia|].
      destruct i as [|i]; [reflexivity|]. cbn [skipn nth]. apply IHs. lia. }
    rewrite E. rewrite (nth_error_nth' _ 0) by lia. reflexivity.
Qed.

(** Decoding what the encoder wrote yields the original numbers; trips with a single stop are only representable
    if their number is 0, 1 or 10. *)
Theorem C12_codec_roundtrip : forall l : list Z,
  Z.of_nat (length l) < 65536 -> (length l = 1%nat -> l = [0] \/ l = [1] \/ l = [10]) ->
  decode_seq_numbers (encode_seq_numbers l) (Z.of_nat (length l)) = Some l.
Proof.
  intros l Hlen H1. unfold decode_seq_numbers, encode_seq_numbers.
  assert (K : forall start inc, 0 <= start < 65536 -> is_based l start inc = true ->
    iterate (length l + 0) (Compact start inc (Z.of_nat (length l))) (Compact (to_u16 (start + Z.of_nat (length l) * inc)) inc 0) = Some l /\
    iterate (length l + 1) (Compact start inc (Z.of_nat (length l))) (Compact (to_u16 (start + Z.of_nat (length l) * inc)) inc 0) = Some l).
  { intros start inc Hs Hb. apply is_based_progression in Hb. split; rewrite iterate_compact by lia; now rewrite <- Hb. }
  destruct (is_based l 0 1) eqn:E0.
  { cbn [seq_begin seq_end seq_type_of]. rewrite Nat2Z.id. destruct (K 0 1 ltac:(lia) E0) as [K0 _].
    replace (to_u16 (0 + Z.of_nat (length l) * 1)) with (Z.of_nat (length l)) in K0 by (rewrite to_u16_id; lia). exact K0. }
  destruct (is_based l 1 1) eqn:E1.
  { cbn [seq_begin seq_end seq_type_of Z.eqb Pos.eqb]. rewrite Nat2Z.id. destruct (K 1 1 ltac:(lia) E1) as [_ K0].
    replace (1 + Z.of_nat (length l) * 1) with (Z.of_nat (length l) + 1) in K0 by lia. exact K0. }
  destruct (is_based l 10 10) eqn:E2.
  { cbn [seq_begin seq_end seq_type_of Z.eqb Pos.eqb]. rewrite Nat2Z.id. destruct (K 10 10 ltac:(lia) E2) as [_ K0].
    replace (10 + Z.of_nat (length l) * 10) with (10 + 10 * Z.of_nat (length l)) in K0 by lia. exact K0. }
  destruct l as [|x [|y l]].
  - discriminate.
  - destruct (H1 eq_refl) as [[= ->]|[[= ->]|[= ->]]]; cbn in *; discriminate.
  - cbn [seq_begin seq_end seq_type_of]. rewrite Nat2Z.id.
    apply (iterate_full (x :: y :: l) (length (x :: y :: l)) 0%nat); lia.
Qed.

(** Compact encodings are used exactly for the three regular numberings and differ from every explicit list. *)
Theorem C12_compact_forms_unambiguous : forall l : list Z, (length l <> 1)%nat ->
  (encode_seq_numbers l = [] <-> l = progression (length l) 0 1) /\
  (encode_seq_numbers l = [1] <-> l = progression (length l) 1 1 /\ l <> []) /\
  (encode_seq_numbers l = [10] <-> l = progression (length l) 10 10 /\ l <> []) /\
  ((length (encode_seq_numbers l) > 1)%nat -> encode_seq_numbers l = l).
Proof.
  intros l Hl. unfold encode_seq_numbers. rewrite <- !is_based_progression.
  assert (N1 : forall a, l <> [a]) by (intros a ->; apply Hl; reflexivity).
  destruct l as [|x l0].
  { cbn. repeat split; try discriminate; try tauto; try lia. }
  set (l := x :: l0) in *. assert (Hne : l <> []) by discriminate.
  assert (X : forall a b, is_based l a b = true -> x = a).
  { intros a b. cbn. destruct (Z.eqb_spec x a); [auto|discriminate]. }
  pose proof (X 0 1) as X0. pose proof (X 1 1) as X1. pose proof (X 10 10) as X10.
  clearbody l. clear X.
  destruct (is_based l 0 1); [specialize (X0 eq_refl); split; [tauto|]; split; [|split];
     [split; [discriminate|intros [H _]; specialize (X1 H); lia]|split; [discriminate|intros [H _]; specialize (X10 H); lia]|cbn; lia]|].
  destruct (is_based l 1 1); [specialize (X1 eq_refl); split; [split; discriminate|]; split; [tauto|]; split;
     [split; [discriminate|intros [H _]; specialize (X10 H); lia]|cbn; lia]|].
  destruct (is_based l 10 10); [split; [split; discriminate|]; split; [split; [discriminate|intros [H _]; discriminate]|]; split; [tauto|cbn; lia]|].
  split; [split; [tauto|discriminate]|]. split; [split; [intros H; destruct (N1 _ H)|intros [H _]; discriminate]|].
  split; [split; [intros H; destruct (N1 _ H)|intros [H _]; discriminate]|reflexivity].
Qed.

(** A single-stop trip numbered 5 cannot be read back at all. *)
Example C12_single_stop_refuted : decode_seq_numbers (encode_seq_numbers [5]) 1 = None.
Proof. reflexivity. Qed.
Example C12_nonvacuous :
  encode_seq_numbers [10; 20; 30; 40] = [10] /\ decode_seq_numbers [10] 4 = Some [10; 20; 30; 40] /\
  encode_seq_numbers [1; 2; 4] = [1; 2; 4] /\ decode_seq_numbers [1; 2; 4] 3 = Some [1; 2; 4].
Proof. vm_compute. auto. Qed.

(** * C13 *)
(** ** Specification *)
Definition unavailable (e : td_footpath) : Prop := td_duration e = 511.
(** [e] is the entry in force at time [x]: the last one that has become valid. *)
Definition in_force (c : list td_footpath) (x : Z) (e : td_footpath) : Prop :=
  In e c /\ td_valid_from e <= x /\ forall e', In e' c -> td_valid_from e' <= x -> td_valid_from e' <= td_valid_from e.
(** One can start walking at time [x] and needs [d] minutes. *)
Definition can_walk (c : list td_footpath) (x d : Z) : Prop :=
  exists e, in_force c x e /\ ~ unavailable e /\ td_duration e = d.
Definition strictly_sorted (c : list td_footpath) : Prop :=
  StronglySorted (fun a b => td_valid_from a < td_valid_from b) c.

Lemma in_force_fun c x e e' : strictly_sorted c -> in_force c x e -> in_force c x e' -> e = e'.
Proof.
  intros Hs (H1 & H2 & H3) (H1' & H2' & H3'). specialize (H3 _ H1' H2'). specialize (H3' _ H1 H2).
  assert (E : td_valid_from e = td_valid_from e') by lia. clear H3 H3' H2 H2'.
  induction Hs as [|a c Hs IH Hall]; [destruct H1|].
  rewrite Forall_forall in Hall.
  destruct H1 as [<-|H1], H1' as [<-|H1']; auto.
  - specialize (Hall _ H1'). lia.
  - specialize (Hall _ H1). lia.
Qed.

(** ** Forward *)
Lemma fwd_spec c t : strictly_sorted c ->
  match get_td_duration_fwd c t with
  | Some (d, e) =>
      (* the walk starts at the earliest possible moment, not more than five days later *)
      let x := t + d - td_duration e in
      t <= x <= t + 7200 /\ in_force c x e /\ ~ unavailable e /\
      (forall x' d', t <= x' -> can_walk c x' d' -> x <= x')
  | None => forall x' d', t <= x' -> can_walk c x' d' -> t + 7200 < x'
  end.
Proof.
  intros Hs. induction Hs as [|i c Hs IH Hall]; cbn [get_td_duration_fwd].
  - intros x' d' _ (e & (Hin & _) & _). destruct Hin.
  - rewrite Forall_forall in Hall.
    (* in force in the tail / whole list *)
    assert (Htail : forall x e, in_force c x e -> in_force (i :: c) x e).
    { intros x e (H1 & H2 & H3). split; [now right|]. split; auto. intros e' [<-|He'] Hx; auto.
      specialize (Hall _ H1). lia. }
    assert (Hinv : forall x e, in_force (i :: c) x e -> in_force c x e \/ (e = i /\ forall e', In e' c -> x < td_valid_from e')).
    { intros x e ([<-|H1] & H2 & H3).
      - right. split; auto. intros e' He'. destruct (Z.lt_ge_cases x (td_valid_from e')) as [|Hge]; auto.
        specialize (H3 e' ltac:(now right) Hge). specialize (Hall _ He'). lia.
      - left. split; auto. split; auto. intros e' He' Hx. apply H3; auto. now right. }
    set (skip := (td_valid_from i <? t) && match c with [] => false | n :: _ => td_valid_from n <=? t end).
    assert (Hskip : skip = true -> exists n, In n c /\ td_valid_from n <= t).
    { unfold skip. intros H. apply andb_true_iff in H. destruct H as [_ H]. destruct c as [|n c']; [discriminate|].
      exists n. split; [now left|]. lia. }
    assert (Hnskip : skip = false -> forall e', In e' c -> Z.max (td_valid_from i) t < td_valid_from e').
    { unfold skip. intros H e' He'. specialize (Hall _ He') as Hlt. apply andb_false_iff in H. destruct H as [H|H].
      - apply Z.ltb_ge in H. lia.
      - destruct c as [|n c']; [destruct He'|]. apply Z.leb_gt in H.
        inversion Hs as [|? ? _ Hall']; subst. rewrite Forall_forall in Hall'.
        destruct He' as [<-|He']; [|specialize (Hall' _ He')]; lia. }
    destruct (Z.eqb_spec (td_duration i) fp_max_duration) as [Hu|Hu]; cbn [orb].
    + (* unavailable *)
      assert (Hcw : forall x d, can_walk (i :: c) x d -> can_walk c x d).
      { intros x d (e & Hf & Hua & Hd). exists e. split; auto. apply Hinv in Hf. destruct Hf as [Hf|[-> _]]; auto.
        exfalso. apply Hua. exact Hu. }
      destruct (get_td_duration_fwd c t) as [[d e]|].
      * destruct IH as (I1 & I2 & I3 & I4). split; auto. split; auto. split; auto.
        intros x' d' Hx Hc. apply (I4 x' d'); auto.
      * intros x' d' Hx Hc. apply (IH x' d'); auto.
    + fold skip. destruct skip eqn:Esk.
      * assert (Hcw : forall x d, t <= x -> can_walk (i :: c) x d -> can_walk c x d).
        { intros x d Hx (e & Hf & Hua & Hd). exists e. split; auto. apply Hinv in Hf. destruct Hf as [Hf|[-> Hno]]; auto.
          destruct (Hskip eq_refl) as (n & Hn & Hle). specialize (Hno _ Hn). lia. }
        destruct (get_td_duration_fwd c t) as [[d e]|].
        -- destruct IH as (I1 & I2 & I3 & I4). split; auto. split; auto. split; auto.
           intros x' d' Hx Hc. apply (I4 x' d'); auto.
        -- intros x' d' Hx Hc. apply (IH x' d'); auto.
      * specialize (Hnskip eq_refl).
        assert (Hmin : forall x' d', t <= x' -> can_walk (i :: c) x' d' -> Z.max (td_valid_from i) t <= x').
        { intros x' d' Hx (e & (He & Hle & _) & _). destruct He as [<-|He]; [lia|]. specialize (Hnskip _ He). lia. }
        rewrite Z.gtb_ltb. destruct (Z.ltb_spec kMaxTravelTimeMin (td_valid_from i - t)) as [Hb|Hb]; unfold kMaxTravelTimeMin in Hb.
        -- intros x' d' Hx Hc. specialize (Hmin _ _ Hx Hc). lia.
        -- replace (t + (Z.max (td_valid_from i) t + td_duration i - t) - td_duration i) with (Z.max (td_valid_from i) t) by lia.
           split; [lia|]. split; [|split; auto].
           split; [now left|]. split; [lia|]. intros e' [<-|He'] Hx; [lia|]. specialize (Hnskip _ He'). lia.
Qed.

(** ** Backward *)
(** The list is traversed from the end; [later] are the entries already passed. *)
Lemma bwd_spec t : forall r later, strictly_sorted (rev r ++ later) ->
  (forall e, In e later -> unavailable e \/ t < td_valid_from e + td_duration e) ->
  let c := rev r ++ later in
  match get_td_duration_bwd_rev r (hd_error later) t with
  | Some (d, e) =>
      let x := t - d in
      x + td_duration e <= t /\ t - (x + td_duration e) <= 7200 /\ in_force c x e /\ ~ unavailable e /\
      (forall x' d', can_walk c x' d' -> x' + d' <= t -> x' <= x)
  | None => (forall x' d', can_walk c x' d' -> x' + d' <= t -> False) \/
            exists x d, can_walk c x d /\ x + d <= t /\ 7200 < t - (x + d) /\
                        (forall x' d', can_walk c x' d' -> x' + d' <= t -> x' <= x)
  end.
Proof.
  induction r as [|i r IH]; intros later Hs Hl c; cbn [get_td_duration_bwd_rev].
  - left. intros x' d' (e & (He & Hle & _) & Hua & <-) Ha. cbn in He. destruct (Hl e He) as [?|?]; [tauto|lia].
  - assert (Ec : c = rev r ++ i :: later) by (unfold c; cbn [rev]; rewrite <- app_assoc; reflexivity).
    cbn [rev] in Hs. rewrite <- app_assoc in Hs. cbn [app] in Hs.
    destruct ((td_duration i =? fp_max_duration) || (td_valid_from i + td_duration i >? t)) eqn:Esk.
    + rewrite Ec. apply (IH (i :: later) Hs). intros e [<-|He]; auto.
      apply orb_true_iff in Esk. destruct Esk as [H|H]; [left; now apply Z.eqb_eq|right; lia].
    + apply orb_false_iff in Esk. destruct Esk as [Hua Hle]. apply Z.eqb_neq in Hua.
      assert (Hle' : td_valid_from i + td_duration i <= t) by lia. clear Hle.
      set (x := match hd_error later with None => t - td_duration i | Some n => Z.min (t - td_duration i) (td_valid_from n - 1) end).
      assert (Hlater : forall e, In e later -> td_valid_from i < td_valid_from e).
      { assert (Hss : strictly_sorted (i :: later)).
        { clear - Hs. induction (rev r) as [|a l IHl]; auto. inversion Hs; auto. }
        inversion Hss as [|? ? _ Hall]; subst. now rewrite Forall_forall in Hall. }
      assert (Hhd : forall n, hd_error later = Some n -> forall e, In e later -> td_valid_from n <= td_valid_from e).
      { destruct later as [|n later']; [discriminate|]. intros n' [= <-] e [<-|He]; [lia|].
        assert (Hss : strictly_sorted (n :: later')).
        { clear - Hs. induction (rev r) as [|a l IHl]; [inversion Hs; auto|]. inversion Hs; auto. }
        inversion Hss as [|? ? _ Hall]; subst. rewrite Forall_forall in Hall. specialize (Hall _ He). lia. }
      assert (Hbefore : forall e, In e (rev r) -> td_valid_from e < td_valid_from i).
      { clear - Hs. induction (rev r) as [|a l IHl]; intros e He; [destruct He|].
        inversion Hs as [|? ? Hs' Hall]; subst. destruct He as [<-|He]; [|now apply IHl].
        rewrite Forall_forall in Hall. apply Hall. apply in_or_app. right. now left. }
      assert (Hx : in_force c x i).
      { rewrite Ec. split; [apply in_or_app; right; now left|]. split.
        - unfold x. destruct (hd_error later) as [n|] eqn:Eh; [|lia]. destruct later; [discriminate|]. injection Eh as ->.
          specialize (Hlater n ltac:(now left)). lia.
        - intros e He Hex. apply in_app_or in He. destruct He as [He|[<-|He]]; [specialize (Hbefore _ He); lia|lia|].
          exfalso. unfold x in Hex. destruct (hd_error later) as [n|] eqn:Eh; [specialize (Hhd n eq_refl _ He); lia|].
          destruct later; [destruct He|discriminate]. }
      assert (Hmax : forall x' d', can_walk c x' d' -> x' + d' <= t -> x' <= x).
      { intros x' d' (e & (He & Hle & Hmx) & Hu & <-) Ha. rewrite Ec in He. apply in_app_or in He. destruct He as [He|[<-|He]].
        - specialize (Hbefore _ He). destruct (Z.lt_ge_cases x' (td_valid_from i)) as [Hlt|Hge].
          + destruct Hx as (_ & Hx & _). lia.
          + specialize (Hmx i ltac:(rewrite Ec; apply in_or_app; right; now left) Hge). lia.
        - unfold x. destruct (hd_error later) as [n|] eqn:Eh; [|lia].
          destruct (Z.lt_ge_cases x' (td_valid_from n)) as [Hlt|Hge]; [lia|].
          destruct later; [discriminate|]. injection Eh as ->.
          specialize (Hmx n ltac:(rewrite Ec; apply in_or_app; right; right; now left) Hge).
          specialize (Hlater n ltac:(now left)). lia.
        - destruct (Hl e He); [tauto|lia]. }
      set (la := match hd_error later with None => t | Some n => Z.min t (td_valid_from n - 1 + td_duration i) end).
      assert (Ela : la = x + td_duration i).
      { unfold la, x. destruct (hd_error later); lia. }
      cbv zeta. rewrite Z.gtb_ltb. destruct (Z.ltb_spec kMaxTravelTimeMin (t - la)) as [Hb|Hb]; unfold kMaxTravelTimeMin in Hb.
      * right. exists x, (td_duration i). split; [exists i; split; [exact Hx|]; split; [exact Hua|reflexivity]|].
        split; [|split; [lia|exact Hmax]].
        destruct Hx as (_ & Hx & _). unfold x in *. destruct (hd_error later); lia.
      * replace (t - (t - (la - td_duration i))) with x by lia.
        split; [unfold x; destruct (hd_error later); lia|]. split; [lia|]. split; [exact Hx|]. split; [exact Hua|exact Hmax].
Qed.

(** Forward: the reported walk starts at the earliest moment at or after [t] at which the footpath is available;
    the reported duration is waiting time plus walking time. *)
Theorem C13_forward_earliest_start : forall (c : list td_footpath) (t : Z), strictly_sorted c ->
  (forall d e, get_td_duration true c t = Some (d, e) ->
     exists x, t <= x <= t + 7200 /\ can_walk c x (td_duration e) /\ d = (x - t) + td_duration e /\
               (forall x' d', t <= x' -> can_walk c x' d' -> x <= x')) /\
  (get_td_duration true c t = None -> forall x d, t <= x <= t + 7200 -> ~ can_walk c x d).
Proof.
  intros c t Hs. pose proof (fwd_spec c t Hs) as H. cbn [get_td_duration]. split.
  - intros d e E. rewrite E in H. cbv zeta in H. destruct H as (H1 & H2 & H3 & H4).
    exists (t + d - td_duration e). split; [exact H1|]. split; [exists e; auto|]. split; [lia|exact H4].
  - intros E x d Hx Hc. rewrite E in H. specialize (H x d ltac:(lia) Hc). lia.
Qed.

(** Backward: the reported walk is the one with the latest departure among all that arrive by [t]; nothing is
    reported only if there is none or the arrival of that walk is more than five days before [t]. *)
Theorem C13_backward_latest_departure : forall (c : list td_footpath) (t : Z), strictly_sorted c ->
  (forall d e, get_td_duration false c t = Some (d, e) ->
     can_walk c (t - d) (td_duration e) /\ (t - d) + td_duration e <= t /\
     (forall x' d', can_walk c x' d' -> x' + d' <= t -> x' <= t - d)) /\
  (get_td_duration false c t = None ->
     (forall x d, can_walk c x d -> ~ x + d <= t) \/
     exists x d, can_walk c x d /\ x + d < t - 7200 /\ (forall x' d', can_walk c x' d' -> x' + d' <= t -> x' <= x)).
Proof.
  intros c t Hs. pose proof (bwd_spec t (rev c) []) as H. rewrite rev_involutive, app_nil_r in H.
  specialize (H Hs ltac:(intros e [])). cbv zeta in H. cbn [get_td_duration]. unfold get_td_duration_bwd. cbn [hd_error] in H.
  split.
  - intros d e E. rewrite E in H. destruct H as (H1 & H2 & H3 & H4 & H5). split; [exists e; auto|]. split; [exact H1|exact H5].
  - intros E. rewrite E in H. destruct H as [H|(x & d & H1 & H2 & H3 & H4)].
    + left. intros x d Hc Hle. eapply H; eauto.
    + right. exists x, d. split; auto. split; [lia|exact H4].
Qed.

Lemma td_groups_cons a c : exists g gs, td_groups (a :: c) = (a :: g) :: gs.
Proof.
  cbn [td_groups]. destruct (td_groups c) as [|[|y g] gs]; [eauto|eauto|].
  destruct (Nat.eqb (td_target a) (td_target y)); eauto.
Qed.

(** Callback of [for_each_footpath]: one footpath per target, from the entries of that target. *)
Theorem C13_for_each_footpath_per_target : forall (fwd : bool) (c : list td_footpath) (t : Z) (l : nat) (d : Z),
  StronglySorted (fun a b => (td_target a <= td_target b)%nat) c ->
  In (l, d) (for_each_footpath fwd c t) <->
  exists e d0, get_td_duration fwd (filter (fun x => Nat.eqb (td_target x) l) c) t = Some (d0, e) /\ d = Z.min d0 511.
Proof.
  intros fwd c t l d Hs.
  assert (G : StronglySorted (fun a b => (td_target a <= td_target b)%nat) c ->
    (forall g, In g (td_groups c) -> g <> [] /\ forall x, hd_error g = Some x -> g = filter (fun y => Nat.eqb (td_target y) (td_target x)) c) /\
    (forall x, In x c -> In (filter (fun y => Nat.eqb (td_target y) (td_target x)) c) (td_groups c)) /\
    (forall x, In x c -> exists g, In g (td_groups c) /\ In x g) /\
    (forall g, In g (td_groups c) -> incl g c)).
  { clear. induction c as [|a c IH]; intros Hs; [cbn; repeat split; try tauto|].
    inversion Hs as [|? ? Hs' Hall]; subst. rewrite Forall_forall in Hall. destruct (IH Hs') as (I1 & I2 & I3 & I4). clear IH.
    assert (Hnone : forall g gs, td_groups c = g :: gs -> forall y, hd_error g = Some y -> td_target a <> td_target y ->
              forall z, In z c -> td_target z <> td_target a).
    { intros g gs Eg y Hy Hne z Hz Hza.
      (* the head group contains the head of c *)
      destruct c as [|b c']; [destruct Hz|].
      assert (Hyb : td_target y = td_target b).
      { destruct (td_groups_cons b c') as (g1 & gs1 & E1). rewrite E1 in Eg. injection Eg as <- <-. cbn in Hy.
        injection Hy as <-. reflexivity. }
      inversion Hs' as [|? ? _ Hall']; subst. rewrite Forall_forall in Hall'.
      specialize (Hall b ltac:(now left)). destruct Hz as [<-|Hz]; [congruence|]. specialize (Hall' _ Hz). lia. }
    cbn [td_groups]. destruct (td_groups c) as [|[|y g] gs] eqn:Eg.
    - (* c must be empty *)
      assert (c = []). { destruct c as [|b c']; auto. destruct (I3 b ltac:(now left)) as (g & [] & _). }
      subst c. cbn. split; [|split; [|split]].
      + intros g [<-|[]]. split; [discriminate|]. intros x [= <-]. rewrite Nat.eqb_refl. reflexivity.
      + intros x [<-|[]]. rewrite Nat.eqb_refl. now left.
      + intros x [<-|[]]. exists [a]. split; now left.
      + intros g [<-|[]]. apply incl_refl.
    - exfalso. destruct (I1 [] ltac:(now left)). congruence.
    - destruct (Nat.eqb_spec (td_target a) (td_target y)) as [Ey|Ey].
      + destruct (I1 (y :: g) ltac:(now left)) as [_ Hg]. specialize (Hg y eq_refl).
        assert (Hoth : forall g', In g' gs -> forall x, hd_error g' = Some x -> td_target x <> td_target a).
        { intros g' Hg' x Hx Hxa. destruct (I1 g' ltac:(now right)) as [_ Hf]. specialize (Hf x Hx).
          (* g' = (y::g) as lists; but then groups repeat: exclude by structure *)
          assert (Hd : forall c0 : list td_footpath, StronglySorted (fun a b => (td_target a <= td_target b)%nat) c0 ->
             forall g0 gs0, td_groups c0 = g0 :: gs0 -> forall u, hd_error g0 = Some u -> forall g1, In g1 gs0 -> forall w, hd_error g1 = Some w ->
             (td_target u < td_target w)%nat).
          { clear. induction c0 as [|a c0 IH]; intros Hs g0 gs0 E u Hu g1 Hg1 w Hw; [discriminate|].
            inversion Hs as [|? ? Hs' Hall]; subst. rewrite Forall_forall in Hall.
            cbn [td_groups] in E. destruct (td_groups c0) as [|[|y g] gs] eqn:Eg.
            - injection E as <- <-. destruct Hg1.
            - injection E as <- <-. cbn in Hu. injection Hu as <-.
              exfalso. clear - Eg. destruct c0 as [|b c0]; [discriminate|].
              destruct (td_groups_cons b c0) as (g1 & gs1 & E1). rewrite E1 in Eg. discriminate.
            - assert (Hya : (td_target a <= td_target y)%nat).
              { destruct c0 as [|b c0]; [discriminate|].
                assert (td_target y = td_target b).
                { destruct (td_groups_cons b c0) as (g2 & gs2 & E1). rewrite E1 in Eg. injection Eg as <- <- <-. reflexivity. }
                specialize (Hall b ltac:(now left)). lia. }
              destruct (Nat.eqb_spec (td_target a) (td_target y)) as [Ea|Ea]; injection E as <- <-; cbn in Hu; injection Hu as <-.
              + rewrite Ea. eapply (IH Hs' _ _ eq_refl y eq_refl); eauto.
              + destruct Hg1 as [<-|Hg1]; [cbn in Hw; injection Hw as <-; lia|].
                specialize (IH Hs' _ _ eq_refl y eq_refl g1 Hg1 w Hw). lia. }
          specialize (Hd c Hs' _ _ Eg y eq_refl g' Hg' x Hx). lia. }
        assert (Hfa : forall x, td_target x = td_target a ->
                  filter (fun z => Nat.eqb (td_target z) (td_target x)) (a :: c) = a :: y :: g).
        { intros x Hx. cbn [filter]. rewrite Hx, Nat.eqb_refl. f_equal. rewrite Hg, Ey. reflexivity. }
        assert (Hfn : forall x, td_target x <> td_target a ->
                  filter (fun z => Nat.eqb (td_target z) (td_target x)) (a :: c) = filter (fun z => Nat.eqb (td_target z) (td_target x)) c).
        { intros x Hx. cbn [filter]. destruct (Nat.eqb_spec (td_target a) (td_target x)); [congruence|reflexivity]. }
        split; [|split; [|split]].
        * intros g' [<-|Hg']; [split; [discriminate|]; intros x [= <-]; symmetry; now apply Hfa|].
          destruct (I1 g' ltac:(now right)) as [Hne Hf]. split; auto. intros x Hx. rewrite Hfn; [now apply Hf|].
          eapply Hoth; eauto.
        * intros x Hx. destruct (Nat.eq_dec (td_target x) (td_target a)) as [Exa|Exa]; [rewrite (Hfa _ Exa); now left|].
          rewrite (Hfn _ Exa). destruct Hx as [<-|Hx]; [congruence|]. destruct (I2 x Hx) as [H|H]; [|now right].
          exfalso. assert (Hyin : In y (filter (fun z => Nat.eqb (td_target z) (td_target x)) c)) by (rewrite <- H; now left).
          apply filter_In in Hyin. destruct Hyin as [_ Hyx]. apply Nat.eqb_eq in Hyx. congruence.
        * intros x [<-|Hx]; [exists (a :: y :: g); split; now left|].
          destruct (I3 x Hx) as (g' & [<-|Hg'] & Hin); [exists (a :: y :: g); split; [now left|now right]|exists g'; split; [now right|auto]].
        * intros g' [<-|Hg']; [apply incl_cons; [now left|]; apply incl_tl; apply I4; now left|].
          apply incl_tl. apply I4. now right.
      + pose proof (Hnone _ _ eq_refl y eq_refl Ey) as Hn.
        assert (Hfa : forall x, td_target x = td_target a -> filter (fun z => Nat.eqb (td_target z) (td_target x)) (a :: c) = [a]).
        { intros x Hx. cbn [filter]. rewrite Hx, Nat.eqb_refl. f_equal.
          clear - Hn. induction c as [|z c IH]; auto. cbn [filter].
          destruct (Nat.eqb_spec (td_target z) (td_target a)) as [E|E]; [exfalso; apply (Hn z); [now left|exact E]|].
          apply IH. intros w Hw. apply Hn. now right. }
        assert (Hfn : forall x, td_target x <> td_target a ->
                  filter (fun z => Nat.eqb (td_target z) (td_target x)) (a :: c) = filter (fun z => Nat.eqb (td_target z) (td_target x)) c).
        { intros x Hx. cbn [filter]. destruct (Nat.eqb_spec (td_target a) (td_target x)); [congruence|reflexivity]. }
        split; [|split; [|split]].
        * intros g' [<-|Hg']; [split; [discriminate|]; intros x [= <-]; symmetry; now apply Hfa|].
          destruct (I1 g' Hg') as [Hne Hf]. split; auto. intros x Hx. rewrite Hfn; [now apply Hf|].
          apply Hn. apply (I4 g' Hg'). destruct g'; [discriminate|]. cbn in Hx. injection Hx as ->. now left.
        * intros x Hx. destruct (Nat.eq_dec (td_target x) (td_target a)) as [Exa|Exa]; [rewrite (Hfa _ Exa); now left|].
          rewrite (Hfn _ Exa). destruct Hx as [<-|Hx]; [congruence|]. right. apply I2. exact Hx.
        * intros x [<-|Hx]; [exists [a]; split; now left|]. destruct (I3 x Hx) as (g' & Hg' & Hin). exists g'. split; [now right|auto].
        * intros g' [<-|Hg']; [intros z [<-|[]]; now left|]. apply incl_tl. now apply I4. }
  destruct (G Hs) as (G1 & G2 & _ & _). unfold for_each_footpath. rewrite in_flat_map. split.
  - intros (g & Hg & Hin). destruct (G1 g Hg) as [_ Hf]. destruct g as [|x g]; [destruct Hin|].
    destruct (get_td_duration fwd (x :: g) t) as [[d0 e]|] eqn:E; [|destruct Hin]. destruct Hin as [[= <- <-]|[]].
    exists e, d0. rewrite <- (Hf x eq_refl). split; [exact E|reflexivity].
  - intros (e & d0 & E & ->).
    destruct (filter (fun x => Nat.eqb (td_target x) l) c) as [|x g] eqn:Ef.
    { destruct fwd; discriminate. }
    assert (Hx : In x c /\ td_target x = l).
    { assert (H : In x (filter (fun x => Nat.eqb (td_target x) l) c)) by (rewrite Ef; now left).
      apply filter_In in H. destruct H as [H1 H2]. apply Nat.eqb_eq in H2. auto. }
    exists (x :: g). split.
    + rewrite <- Ef. destruct Hx as [Hx <-]. now apply G2.
    + rewrite E. destruct Hx as [_ ->]. now left.
Qed.

(** Waiting for the earliest availability is not always the earliest arrival: at 10:00 one can start at once and
    walk 200 minutes, but from 10:05 on the way takes only 5 minutes. *)
Example C13_forward_not_earliest_arrival_refuted :
  let c := [mk_td 1 600 200; mk_td 1 605 5] in
  strictly_sorted c /\ get_td_duration true c 600 = Some (200, mk_td 1 600 200) /\ can_walk c 605 5.
Proof.
  assert (Hs : strictly_sorted [mk_td 1 600 200; mk_td 1 605 5]) by (repeat constructor).
  split; [exact Hs|]. split; [reflexivity|].
  exists (mk_td 1 605 5). split; [|split; [unfold unavailable; cbn; lia|reflexivity]].
  split; [cbn; auto|]. split; [cbn; lia|]. intros e' [<-|[<-|[]]]; cbn; lia.
Qed.
Example C13_nonvacuous :
  let c := [mk_td 1 600 10; mk_td 1 700 511; mk_td 1 800 20] in
  strictly_sorted c /\ get_td_duration true c 710 = Some (110, mk_td 1 800 20) /\
  get_td_duration false c 790 = Some (91, mk_td 1 600 10) /\
  for_each_footpath true (mk_td 0 0 7 :: c) 710 = [(0%nat, 7); (1%nat, 110)].
Proof. split; [repeat constructor|]. vm_compute. auto. Qed.

Print Assumptions C12_codec_roundtrip.
Print Assumptions C12_compact_forms_unambiguous.
Print Assumptions C13_forward_earliest_start.
Print Assumptions C13_backward_latest_departure.
Print Assumptions C13_for_each_footpath_per_target.
