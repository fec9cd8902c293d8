(** Proofs about the HRD loader's conversion to UTC. *)
From Coq Require Import List Arith ZArith Bool Lia.
From Verif Require Import Hrd_Model Hrd_Bits Hrd_Spec.
Import ListNotations.
Local Open Scope Z_scope.

Lemma in_season_iff : forall l s, in_season l s = true <-> sn_begin s <= l < sn_end s.
Proof. intros. unfold in_season. rewrite andb_true_iff, Z.leb_le, Z.ltb_lt. reflexivity. Qed.

(** Everything the clocks show in a season lies in its local interval. *)
Lemma in_force_local : forall z u s, wf_tz z -> In s (tz_seasons z) -> in_force z u s ->
  sn_begin s + (sn_off s - tz_off z) <= u + sn_off s < sn_end s.
Proof.
  intros z u s W I F. pose proof (wz_shift _ W s I). unfold in_force in F. lia.
Qed.

Lemma one_season : forall z l s s', wf_tz z -> In s (tz_seasons z) -> In s' (tz_seasons z) ->
  sn_begin s <= l < sn_end s -> sn_begin s' <= l < sn_end s' -> sn_off s = sn_off s' /\ sn_begin s = sn_begin s' /\ sn_end s = sn_end s'.
Proof.
  intros z l s s' W I I' A B.
  assert (E : s = s').
  { destruct s as [b e o], s' as [b' e' o'].
    destruct (Z.eq_dec b b') as [<- | N1];
      [destruct (Z.eq_dec e e') as [<- | N2]; [destruct (Z.eq_dec o o') as [<- | N3]; [reflexivity |] |] |];
      exfalso;
      (destruct (wz_disj _ W _ _ I I') as [D | D]; [intros [=]; congruence | cbn in *; lia | cbn in *; lia]). }
  subst s'. auto.
Qed.

Lemma offset_fun : forall z u o o', wf_tz z -> offset_at z u o -> offset_at z u o' -> o = o'.
Proof.
  intros z u o o' W [[s [I [F ->]]] | [N ->]] [[s' [I' [F' ->]]] | [N' ->]]; auto.
  - pose proof (wz_shift _ W s I). pose proof (wz_shift _ W s' I'). unfold in_force in *.
    destruct (one_season z (u + tz_off z) s s' W I I') as [E _]; try lia.
  - exfalso. apply (N' s I F).
  - exfalso. apply (N s' I' F').
Qed.

Lemma shows_fun : forall z u l l', wf_tz z -> shows z u l -> shows z u l' -> l = l'.
Proof.
  intros z u l l' W [o [A ->]] [o' [B ->]]. rewrite (offset_fun z u o o' W A B). reflexivity.
Qed.

(** The two cases of the code's decision. *)
Lemma find_season : forall z l,
  match find (in_season l) (tz_seasons z) with
  | Some s => In s (tz_seasons z) /\ sn_begin s <= l < sn_end s
  | None => forall s, In s (tz_seasons z) -> ~ (sn_begin s <= l < sn_end s)
  end.
Proof.
  intros z l. destruct (find (in_season l) (tz_seasons z)) as [s |] eqn:F.
  - apply find_some in F. destruct F as [I F]. apply in_season_iff in F. auto.
  - intros s I H. apply in_season_iff in H. pose proof (find_none _ _ F s I). congruence.
Qed.

(** What any instant showing [l] looks like *)
Lemma shows_cases : forall z u l, wf_tz z -> shows z u l ->
  match find (in_season l) (tz_seasons z) with
  | Some s =>
      (u = l - sn_off s /\ sn_begin s + (sn_off s - tz_off z) <= l) \/
      (u = l - tz_off z /\ sn_end s - (sn_off s - tz_off z) <= l)
  | None => u = l - tz_off z
  end.
Proof.
  intros z u l W [o [O E]]. pose proof (find_season z l) as F.
  destruct (find (in_season l) (tz_seasons z)) as [s |].
  - destruct F as [I L]. destruct O as [[s' [I' [F' ->]]] | [N ->]].
    + pose proof (in_force_local z u s' W I' F') as Q. pose proof (wz_shift _ W s' I').
      destruct (one_season z l s s' W I I' L) as [E1 [E2 E3]]; [lia |].
      left. rewrite E1, E2. lia.
    + right. split; [lia |]. assert (~ in_force z u s) as Nf by (apply N; exact I).
      unfold in_force in Nf. lia.
  - destruct O as [[s' [I' [F' ->]]] | [N ->]].
    + exfalso. pose proof (in_force_local z u s' W I' F') as Q. pose proof (wz_shift _ W s' I').
      apply (F s' I'). lia.
    + lia.
Qed.

Definition the_utc (z : tz) (l : Z) : Z :=
  l - match find (in_season l) (tz_seasons z) with Some s => sn_off s | None => tz_off z end.
Definition the_valid (z : tz) (l : Z) : bool :=
  match find (in_season l) (tz_seasons z) with
  | Some s => sn_begin s + (sn_off s - tz_off z) <? l
  | None => true
  end.

Lemma the_utc_shows : forall z l, wf_tz z ->
  match find (in_season l) (tz_seasons z) with
  | Some s => sn_begin s + (sn_off s - tz_off z) <= l
  | None => True
  end -> shows z (the_utc z l) l.
Proof.
  intros z l W V. unfold the_utc. pose proof (find_season z l) as F.
  destruct (find (in_season l) (tz_seasons z)) as [s |].
  - destruct F as [I L]. exists (sn_off s). split; [| lia]. left. exists s.
    split; [exact I |]. split; [| reflexivity]. unfold in_force. lia.
  - exists (tz_off z). split; [| lia]. right. split; [| reflexivity]. intros s I Q.
    pose proof (wz_shift _ W s I). unfold in_force in Q. apply (F s I). lia.
Qed.

Lemma valid_iff : forall z l u, wf_tz z ->
  (the_valid z l = true /\ u = the_utc z l) <-> ev_instant z l u.
Proof.
  intros z l u W. split.
  - intros [V ->].
    assert (Sh : shows z (the_utc z l) l).
    { apply the_utc_shows; [exact W |]. unfold the_valid in V.
      destruct (find (in_season l) (tz_seasons z)); [apply Z.ltb_lt in V; lia | exact I]. }
    split; [split; [exact Sh |] |].
    + intros u' Sh'. pose proof (shows_cases z u' l W Sh') as C. unfold the_utc.
      pose proof (find_season z l) as F.
      destruct (find (in_season l) (tz_seasons z)) as [s |]; [| lia].
      pose proof (wz_shift _ W s (proj1 F)). lia.
    + intros [s' [I' E]]. unfold the_valid in V. pose proof (find_season z l) as F.
      pose proof (wz_shift _ W s' I'). pose proof (wz_long _ W s' I').
      destruct (find (in_season l) (tz_seasons z)) as [s |].
      * destruct F as [I L]. apply Z.ltb_lt in V.
        destruct (one_season z l s s' W I I' L) as [E1 [E2 E3]]; lia.
      * apply (F s' I'). lia.
  - intros [[Sh Fi] Ns]. pose proof (shows_cases z u l W Sh) as C.
    assert (V : the_valid z l = true).
    { unfold the_valid. pose proof (find_season z l) as F.
      destruct (find (in_season l) (tz_seasons z)) as [s |]; [| reflexivity].
      destruct F as [I L]. apply Z.ltb_lt. pose proof (wz_long _ W s I). pose proof (wz_shift _ W s I).
      destruct (Z.eq_dec l (sn_begin s + (sn_off s - tz_off z))) as [E | N]; [| lia].
      exfalso. apply Ns. exists s. auto. }
    split; [exact V |].
    assert (Sh2 : shows z (the_utc z l) l).
    { apply the_utc_shows; [exact W |]. unfold the_valid in V.
      destruct (find (in_season l) (tz_seasons z)); [apply Z.ltb_lt in V; lia | exact I]. }
    pose proof (Fi _ Sh2) as Le. unfold the_utc in *. pose proof (find_season z l) as F.
    destruct (find (in_season l) (tz_seasons z)) as [s |]; [| exact C].
    pose proof (wz_shift _ W s (proj1 F)). lia.
Qed.

Lemma ev_instant_fun : forall z l l' u, wf_tz z -> ev_instant z l u -> ev_instant z l' u -> l = l'.
Proof. intros z l l' u W [[A _] _] [[B _] _]. apply (shows_fun z u l l' W A B). Qed.
Lemma ev_instant_det : forall z l u u', wf_tz z -> ev_instant z l u -> ev_instant z l u' -> u = u'.
Proof.
  intros z l u u' W A B. apply (valid_iff z l u W) in A. apply (valid_iff z l u' W) in B.
  destruct A as [_ ->], B as [_ ->]. reflexivity.
Qed.

Lemma the_utc_range : forall z l, wf_tz z -> l - 1440 <= the_utc z l <= l + 1440.
Proof.
  intros z l W. unfold the_utc. pose proof (find_season z l) as F. destruct (wz_day _ W) as [A B].
  destruct (find (in_season l) (tz_seasons z)) as [s |]; [pose proof (B s (proj1 F)) |]; lia.
Qed.

(** [local_to_utc] in these terms *)
Lemma local_to_utc_first : forall z day mam m fdo v, local_to_utc z day mam true = (m, fdo, v) ->
  v = the_valid z (day + mam) /\
  (v = true -> the_utc z (day + mam) = day + fdo + m /\ fdo mod 1440 = 0 /\
    (-1440 <= the_utc z (day + mam) - day -> 0 <= m < 1440)).
Proof.
  intros z day mam m fdo v E. unfold local_to_utc in E.
  set (off := match find (in_season (day + mam)) (tz_seasons z) with
              | Some s => sn_off s | None => tz_off z end) in E.
  fold (the_valid z (day + mam)) in E.
  assert (U : the_utc z (day + mam) = day + (mam - off)) by (unfold the_utc; fold off; lia).
  rewrite U. clear U. cbn [andb] in E. destruct (the_valid z (day + mam)).
  - destruct (1440 <=? mam - off) eqn:G.
    + injection E as <- <- <-. split; [reflexivity |]. intros _. apply Z.leb_le in G.
      pose proof (Z.div_mod (mam - off) 1440). pose proof (Z.mod_pos_bound (mam - off) 1440).
      split; [lia |]. split; [apply Z_mod_mult |]. lia.
    + apply Z.leb_gt in G. destruct (mam - off <? 0) eqn:H; injection E as <- <- <-.
      * apply Z.ltb_lt in H. split; [reflexivity |]. intros _. repeat split; lia.
      * apply Z.ltb_ge in H. split; [reflexivity |]. intros _. repeat split; lia.
  - split; [| intros C].
    + destruct (1440 <=? mam - off + 60); [injection E; auto |].
      destruct (mam - off + 60 <? 0); injection E; auto.
    + exfalso. destruct (1440 <=? mam - off + 60); [injection E as _ _ E; congruence |].
      destruct (mam - off + 60 <? 0); injection E as _ _ E; congruence.
Qed.

Lemma local_to_utc_next : forall z day mam m doff v, local_to_utc z day mam false = (m, doff, v) ->
  (v = the_valid z (day + mam)) /\
  (v = true -> (doff = 0 <-> day <= the_utc z (day + mam)) /\
    (doff = 0 -> the_utc z (day + mam) = day + m)).
Proof.
  intros z day mam m fdo v E. unfold local_to_utc in E.
  set (off := match find (in_season (day + mam)) (tz_seasons z) with
              | Some s => sn_off s | None => tz_off z end) in E.
  fold (the_valid z (day + mam)) in E.
  assert (U : the_utc z (day + mam) = day + (mam - off)) by (unfold the_utc; fold off; lia).
  rewrite U. clear U. cbn [andb] in E. destruct (the_valid z (day + mam)).
  - destruct (mam - off <? 0) eqn:H; injection E as <- <- <-.
    + apply Z.ltb_lt in H. split; [reflexivity |]. intros _. repeat split; lia.
    + apply Z.ltb_ge in H. split; [reflexivity |]. intros _. repeat split; lia.
  - split; [| intros C].
    + destruct (mam - off + 60 <? 0); injection E; auto.
    + exfalso. destruct (mam - off + 60 <? 0); injection E as _ _ E; congruence.
Qed.

(** ** The sequence *)

Fixpoint chain (p : Z) (us : list Z) : Prop :=
  match us with [] => True | u :: r => p <= u /\ chain u r end.
Lemma chain_nondecreasing : forall p us, chain p us <->
  (match us with [] => True | u :: _ => p <= u end) /\ nondecreasing us.
Proof.
  intros p us. revert p. induction us as [| u r IH]; intros p; cbn [chain nondecreasing]; [tauto |].
  rewrite IH. destruct r; tauto.
Qed.

Definition ev_ok (day : Z) (base : Z) (e : Z * tz) (u : Z) : Prop :=
  ev_instant (snd e) (day + fst e) (base + u).

Lemma utc_seq_iff : forall evs day fdo pred us,
  (forall e, In e evs -> wf_tz (snd e)) -> 0 <= pred ->
  (utc_seq day fdo evs pred = Some us <->
   Forall2 (ev_ok day (day + fdo)) evs us /\ chain pred us).
Proof.
  induction evs as [| [l z] r IH]; intros day fdo pred us W P; cbn [utc_seq].
  - split.
    + intros [= <-]. split; [constructor | exact I].
    + intros [F _]. inversion F. reflexivity.
  - assert (Wz : wf_tz z) by (apply (W (l, z)); left; reflexivity).
    assert (Wr : forall e, In e r -> wf_tz (snd e)) by (intros e I; apply W; right; exact I).
    destruct (local_to_utc z (day + fdo) (l - fdo) false) as [[u doff] valid] eqn:E.
    destruct (local_to_utc_next _ _ _ _ _ _ E) as [V Q].
    replace (day + fdo + (l - fdo)) with (day + l) in * by lia.
    destruct (negb (doff =? 0) || (u <? pred) || negb valid) eqn:B.
    + split; [discriminate |]. intros [F C]. exfalso. inversion F as [| ? u' ? us' F1 F2 E1 E2]. subst.
      unfold ev_ok in F1. cbn [fst snd] in F1. apply (valid_iff _ _ _ Wz) in F1. destruct F1 as [V1 U1].
      rewrite V1 in *. destruct (Q eq_refl) as [Q1 Q2].
      destruct C as [C _].
      assert (D : doff = 0) by (apply Q1; lia). specialize (Q2 D). subst doff.
      cbn [negb Z.eqb orb] in B. rewrite orb_false_r in B. apply Z.ltb_lt in B. lia.
    + apply orb_false_iff in B. destruct B as [B B3]. apply orb_false_iff in B. destruct B as [B1 B2].
      apply negb_false_iff in B1, B3. apply Z.eqb_eq in B1. apply Z.ltb_ge in B2. subst doff.
      rewrite B3 in V. destruct (Q B3) as [_ Q2]. specialize (Q2 eq_refl).
      assert (Ev : ev_instant z (day + l) (day + fdo + u)).
      { apply (valid_iff _ _ _ Wz). split; [auto | lia]. }
      split.
      * destruct (utc_seq day fdo r u) as [us' |] eqn:R; [| discriminate]. intros [= <-].
        assert (Pu : 0 <= u) by lia.
        apply (IH day fdo u us' Wr Pu) in R. destruct R as [R1 R2].
        split; [constructor; [exact Ev | exact R1] |]. cbn [chain]. split; [lia | exact R2].
      * intros [F C]. inversion F as [| ? u' ? us' F1 F2 E1 E2]. subst. unfold ev_ok in F1. cbn [fst snd] in F1.
        pose proof (ev_instant_det z _ _ _ Wz Ev F1) as Eu. assert (u' = u) by lia. subst u'.
        cbn [chain] in C. destruct C as [_ C]. assert (Pu : 0 <= u) by lia.
        pose proof (proj2 (IH day fdo u us' Wr Pu) (conj F2 C)) as R. rewrite R. reflexivity.
Qed.

Definition first_ok (us : list Z) : Prop := match us with [] => False | u :: _ => 0 <= u < 1440 end.

Lemma build_iff : forall evs day us fdo,
  (forall e, In e evs -> wf_tz (snd e) /\ 0 <= fst e) ->
  (build_utc_time_seq evs day = Some (us, fdo) <->
   Forall2 (ev_ok day (day + fdo)) evs us /\ nondecreasing us /\ first_ok us /\ fdo mod 1440 = 0).
Proof.
  intros [| [l z] r] day us fdo W.
  - cbn. split; [discriminate |]. intros [F [_ [O _]]]. inversion F. subst. destruct O.
  - assert (Wz : wf_tz z /\ 0 <= l) by (apply (W (l, z)); left; reflexivity). destruct Wz as [Wz Pl].
    assert (We : forall e, In e ((l, z) :: r) -> wf_tz (snd e)) by (intros e I; apply W; exact I).
    unfold build_utc_time_seq.
    destruct (local_to_utc z day l true) as [[m f] valid] eqn:E.
    destruct (local_to_utc_first _ _ _ _ _ _ E) as [V Q].
    pose proof (the_utc_range z (day + l) Wz) as Rg.
    destruct valid; cbn [negb].
    + destruct (Q eq_refl) as [Q1 [Q2 Q3]]. clear Q. specialize (Q3 ltac:(lia)).
      assert (Ev : ev_instant z (day + l) (day + f + m)).
      { apply (valid_iff _ _ _ Wz). split; [auto | lia]. }
      split.
      * destruct (utc_seq day f ((l, z) :: r) 0) as [us' |] eqn:R; [| discriminate].
        intros [= <- <-]. apply (utc_seq_iff _ _ _ _ _ We (Z.le_refl 0)) in R. destruct R as [R1 R2].
        apply chain_nondecreasing in R2. split; [exact R1 |]. split; [tauto |]. split; [| exact Q2].
        inversion R1 as [| ? u' ? us'' F1 F2 E1 E2]. subst. unfold ev_ok in F1. cbn [fst snd] in F1.
        pose proof (ev_instant_det z _ _ _ Wz Ev F1). cbn. lia.
      * intros [F [N [O M]]]. inversion F as [| ? u' ? us'' F1 F2 E1 E2]. subst.
        unfold ev_ok in F1. cbn [fst snd] in F1.
        pose proof (ev_instant_det z _ _ _ Wz Ev F1) as Eq. cbn in O.
        assert (fdo = f).
        { pose proof (Z.div_mod fdo 1440). pose proof (Z.div_mod f 1440). lia. }
        subst f.
        rewrite (proj2 (utc_seq_iff _ day fdo 0 (u' :: us'') We (Z.le_refl 0))); [reflexivity |].
        split; [exact F |]. apply chain_nondecreasing. split; [lia | exact N].
    + split; [discriminate |]. intros [F _]. exfalso.
      inversion F as [| ? u' ? us'' F1 F2 E1 E2]. subst. unfold ev_ok in F1. cbn [fst snd] in F1.
      apply (valid_iff _ _ _ Wz) in F1. destruct F1 as [F1 _]. congruence.
Qed.

(** ** Events of a piece *)

Section Piece.
  Variable tz_of : nat -> tz.

  Lemma pair_events : forall stops add day base us,
    (Forall2 (ev_ok day base) (combine (pair_times stops add) (pair_tzs tz_of stops)) us <->
     length us = (2 * (length stops - 1))%nat /\
     forall m, (m < length stops - 1)%nat -> exists a b,
       nth_error stops m = Some a /\ nth_error stops (m + 1) = Some b /\
       ev_instant (tz_of (hs_eva a)) (day + (hs_dep a + add)) (base + nth (2 * m) us 0) /\
       ev_instant (tz_of (hs_eva b)) (day + (hs_arr b + add)) (base + nth (2 * m + 1) us 0)).
  Proof.
    induction stops as [| a [| b r] IH]; intros add day base us.
    - cbn. split.
      + intros F. inversion F. split; [reflexivity | intros m M; lia].
      + intros [L _]. destruct us; [constructor | discriminate].
    - cbn. split.
      + intros F. inversion F. split; [reflexivity | intros m M; lia].
      + intros [L _]. destruct us; [constructor | discriminate].
    - change (pair_times (a :: b :: r) add)
        with ((hs_dep a + add) :: (hs_arr b + add) :: pair_times (b :: r) add).
      change (pair_tzs tz_of (a :: b :: r))
        with (tz_of (hs_eva a) :: tz_of (hs_eva b) :: pair_tzs tz_of (b :: r)).
      cbn [combine].
      replace (length (a :: b :: r) - 1)%nat with (S (length (b :: r) - 1))%nat by (cbn; lia).
      split.
      + intros F. inversion F as [| ? u ? us1 F1 F2 E1 E2]. subst.
        inversion F2 as [| ? u2 ? us2 F3 F4 E3 E4]. subst.
        apply IH in F4. destruct F4 as [L H].
        split; [cbn [length] in *; lia |]. intros [| m] M.
        * exists a, b. split; [reflexivity |]. split; [reflexivity |]. split; [exact F1 | exact F3].
        * destruct (H m) as [a' [b' [N1 [N2 [N3 N4]]]]]; [lia |]. exists a', b'.
          split; [exact N1 |]. split; [exact N2 |].
          replace (2 * S m)%nat with (S (S (2 * m))) by lia.
          replace (S (S (2 * m)) + 1)%nat with (S (S (2 * m + 1))) by lia. split; assumption.
      + intros [L H]. destruct us as [| u [| u2 us2]]; [cbn [length] in L; lia | cbn [length] in L; lia |].
        destruct (H 0%nat) as [a' [b' [N1 [N2 [N3 N4]]]]]; [lia |].
        cbn in N1, N2. injection N1 as <-. injection N2 as <-.
        constructor; [exact N3 |]. constructor; [exact N4 |]. apply IH.
        split; [cbn [length] in L |- *; lia |]. intros m M.
        destruct (H (S m)) as [a' [b' [M1 [M2 [M3 M4]]]]]; [lia |]. exists a', b'.
        split; [exact M1 |]. split; [exact M2 |].
        replace (2 * S m)%nat with (S (S (2 * m))) in M3, M4 by lia.
        replace (S (S (2 * m)) + 1)%nat with (S (S (2 * m + 1))) in M4 by lia. split; assumption.
  Qed.

  Lemma pair_tzs_length : forall stops add,
    length (pair_tzs tz_of stops) = length (pair_times stops add).
  Proof.
    induction stops as [| a [| b r] IH]; intros add; try reflexivity.
    change (pair_tzs tz_of (a :: b :: r)) with (tz_of (hs_eva a) :: tz_of (hs_eva b) :: pair_tzs tz_of (b :: r)).
    change (pair_times (a :: b :: r) add) with ((hs_dep a + add) :: (hs_arr b + add) :: pair_times (b :: r) add).
    cbn [length]. rewrite (IH add). reflexivity.
  Qed.

  Lemma pair_last : forall stops add z, (2 <= length stops)%nat ->
    nth_error stops (length stops - 1) = Some z ->
    fst (List.last (combine (pair_times stops add) (pair_tzs tz_of stops))
      (0, {| tz_off := 0; tz_seasons := [] |})) = hs_arr z + add.
  Proof.
    induction stops as [| a [| b r] IH]; intros add z L N; cbn [length] in L; try lia.
    change (pair_tzs tz_of (a :: b :: r)) with (tz_of (hs_eva a) :: tz_of (hs_eva b) :: pair_tzs tz_of (b :: r)).
    change (pair_times (a :: b :: r) add) with ((hs_dep a + add) :: (hs_arr b + add) :: pair_times (b :: r) add).
    cbn [combine]. destruct r as [| c r].
    - cbn in N |- *. injection N as <-. reflexivity.
    - replace (length (a :: b :: c :: r) - 1)%nat with (S (length (b :: c :: r) - 1)) in N by (cbn; lia).
      cbn [nth_error] in N. rewrite <- (IH add z) by (cbn [length] in *; try lia; exact N).
      change (pair_tzs tz_of (b :: c :: r)) with (tz_of (hs_eva b) :: tz_of (hs_eva c) :: pair_tzs tz_of (c :: r)).
      change (pair_times (b :: c :: r) add) with ((hs_dep b + add) :: (hs_arr c + add) :: pair_times (c :: r) add).
      reflexivity.
  Qed.

  Lemma pair_in : forall stops add e,
    In e (combine (pair_times stops add) (pair_tzs tz_of stops)) ->
    exists m a b, nth_error stops m = Some a /\ nth_error stops (m + 1) = Some b /\
      (e = (hs_dep a + add, tz_of (hs_eva a)) \/ e = (hs_arr b + add, tz_of (hs_eva b))).
  Proof.
    induction stops as [| a [| b r] IH]; intros add e I; try (destruct I; fail).
    change (pair_tzs tz_of (a :: b :: r)) with (tz_of (hs_eva a) :: tz_of (hs_eva b) :: pair_tzs tz_of (b :: r)) in I.
    change (pair_times (a :: b :: r) add) with ((hs_dep a + add) :: (hs_arr b + add) :: pair_times (b :: r) add) in I.
    cbn [combine] in I. destruct I as [<- | [<- | I]].
    - exists 0%nat, a, b. auto.
    - exists 0%nat, a, b. auto.
    - destruct (IH add e I) as [m [x [y [M1 [M2 M3]]]]]. exists (S m), x, y. auto.
  Qed.
End Piece.

(** ** The map *)

Definition pairs (m : list (hkey * list nat)) : list (hkey * nat) :=
  flat_map (fun kb => map (pair (fst kb)) (snd kb)) m.

Definition map_ok (m : list (hkey * list nat)) : Prop :=
  NoDup (map fst m) /\ forall k b, In (k, b) m -> NoDup b.

Lemma bset_NoDup : forall d b, NoDup b -> NoDup (bset d b).
Proof.
  intros d b N. unfold bset. destruct (mem d b) eqn:M; [exact N |].
  constructor; [apply mem_false; exact M | exact N].
Qed.

Lemma emplace_keys : forall k d m x, In x (map fst (emplace k d m)) <-> x = k \/ In x (map fst m).
Proof.
  intros k d. induction m as [| [k' b] r IH]; intros x; cbn [emplace].
  - cbn. split; intros [-> | []]; auto.
  - destruct (key_eq_dec k k') as [<- | N]; cbn [map fst In].
    + split; [tauto |]. intros [-> | H]; auto.
    + rewrite IH. tauto.
Qed.

Lemma emplace_ok : forall k d m, map_ok m -> map_ok (emplace k d m).
Proof.
  intros k d. induction m as [| [k' b] r IH]; intros [N B]; cbn [emplace].
  - split; [cbn; constructor; [intros [] | constructor] |].
    intros x y [[= <- <-] | []]. constructor; [intros [] | constructor].
  - cbn [map fst] in N. inversion N as [| ? ? N1 N2]. subst.
    destruct (key_eq_dec k k') as [<- | Ne].
    + split; [cbn [map fst]; constructor; assumption |].
      intros x y [[= <- <-] | I].
      * apply bset_NoDup. apply (B k b). left. reflexivity.
      * apply (B x y). right. exact I.
    + destruct IH as [A1 A2]; [split; [exact N2 | intros x y I; apply (B x y); right; exact I] |].
      split.
      * cbn [map fst]. constructor; [| exact A1]. rewrite emplace_keys. intros [-> | I]; [congruence | auto].
      * intros x y [[= <- <-] | I]; [apply (B k' b); left; reflexivity | apply (A2 x y I)].
Qed.

Lemma emplace_pairs : forall k d m x, In x (pairs (emplace k d m)) <-> x = (k, d) \/ In x (pairs m).
Proof.
  intros k d. induction m as [| [k' b] r IH]; intros x; cbn [emplace].
  - cbn. split; [intros [<- | []]; auto | intros [-> | []]; auto].
  - destruct (key_eq_dec k k') as [<- | N]; unfold pairs in *; cbn [flat_map fst snd];
      rewrite !in_app_iff.
    + rewrite !in_map_iff. split.
      * intros [[y [<- Y]] | H]; [| auto]. apply In_bset in Y. destruct Y as [-> | Y]; [auto |].
        right. left. exists y. auto.
      * intros [-> | [[y [<- Y]] | H]]; auto.
        -- left. exists d. split; [reflexivity | apply In_bset; auto].
        -- left. exists y. split; [reflexivity | apply In_bset; auto].
    + rewrite IH. tauto.
Qed.

Lemma pairs_NoDup : forall m, map_ok m -> NoDup (pairs m).
Proof.
  induction m as [| [k b] r IH]; intros [N B]; unfold pairs; cbn [flat_map]; [constructor |].
  cbn [map fst] in N. inversion N as [| ? ? N1 N2]. subst.
  assert (Nr : NoDup (pairs r)) by (apply IH; split; [exact N2 | intros x y I; apply (B x y); right; exact I]).
  assert (Nb : NoDup b) by (apply (B k b); left; reflexivity).
  fold (pairs r). cbn [fst snd]. clear IH B. induction b as [| d b IHb]; cbn [map app]; [exact Nr |].
  inversion Nb as [| ? ? D1 D2]. subst. constructor; [| apply IHb; exact D2].
  rewrite in_app_iff. intros [I | I].
  - apply in_map_iff in I. destruct I as [y [[= ->] Y]]. auto.
  - unfold pairs in I. apply in_flat_map in I. destruct I as [[k2 b2] [I1 I2]].
    apply in_map_iff in I2. cbn in I2. destruct I2 as [y [[= -> _] _]].
    apply N1. apply in_map_iff. exists (k, b2). auto.
Qed.

Lemma NoDup_map_inj : forall {A B} (f : A -> B) l,
  (forall x y, In x l -> In y l -> f x = f y -> x = y) -> NoDup l -> NoDup (map f l).
Proof.
  intros A B f. induction l as [| a l IH]; intros Inj N; cbn; [constructor |].
  inversion N as [| ? ? N1 N2]. subst. constructor.
  - intros I. apply in_map_iff in I. destruct I as [y [E Y]].
    assert (y = a) by (apply Inj; [right; exact Y | left; reflexivity | exact E]). subst y. auto.
  - apply IH; [intros x y X Y; apply Inj; right; assumption | exact N2].
Qed.

Section Days.
  Variables (hrd_from sel_from sel_to : Z) (days : list nat) (evs : list (Z * tz)).
  Variable seq_of : Z -> list (option (nat * bool * bool)).
  Hypothesis evs_ok : forall e, In e evs -> wf_tz (snd e) /\ 0 <= fst e.

  Let f := step_day hrd_from sel_from sel_to days evs seq_of.
  Let ent := day_entry hrd_from sel_from sel_to days evs seq_of.

  Lemma fold_days : forall is m, map_ok m ->
    map_ok (fold_left f is m) /\
    forall x, In x (pairs (fold_left f is m)) <-> In x (pairs m) \/ exists i, In i is /\ ent i = Some x.
  Proof.
    induction is as [| i is IH]; intros m M; cbn [fold_left].
    - split; [exact M |]. intros x. split; [auto |]. intros [H | [i [[] _]]]. exact H.
    - assert (Mf : map_ok (f m i)).
      { unfold f, step_day. destruct (day_entry hrd_from sel_from sel_to days evs seq_of i) as [[k d] |];
          [apply emplace_ok; exact M | exact M]. }
      destruct (IH (f m i) Mf) as [A B]. split; [exact A |]. intros x. rewrite B.
      unfold f, step_day. fold ent. destruct (ent i) as [[k d] |] eqn:E.
      + rewrite emplace_pairs. split.
        * intros [[-> | H] | [j [J1 J2]]].
          -- right. exists i. split; [left; reflexivity | exact E].
          -- left. exact H.
          -- right. exists j. split; [right; exact J1 | exact J2].
        * intros [H | [j [[<- | J1] J2]]].
          -- left. right. exact H.
          -- left. left. rewrite E in J2. injection J2 as <-. reflexivity.
          -- right. exists j. auto.
      + split.
        * intros [H | [j [J1 J2]]]; [left; exact H |]. right. exists j. split; [right; exact J1 | exact J2].
        * intros [H | [j [[<- | J1] J2]]]; [left; exact H | congruence |]. right. exists j. auto.
  Qed.

  Let dayof (i : nat) : Z := (hrd_from + Z.of_nat i) * 1440.
  Let overlap (i : nat) : Prop :=
    sel_from < hrd_from + Z.of_nat i + (1 + fst (List.last evs (0, {| tz_off := 0; tz_seasons := [] |})) / 1440)
    /\ hrd_from + Z.of_nat i < sel_to.

  Definition trip_of (kd : hkey * nat) : list Z * list (option (nat * bool * bool)) :=
    (map (fun t => day_instant sel_from (snd kd) + t) (fst (fst kd)), snd (fst kd)).

  Lemma entry_iff : forall i us ss d,
    ent i = Some ((us, ss), d) <->
    In i days /\ overlap i /\ ss = seq_of (Z.of_nat i) /\ first_ok us /\ nondecreasing us /\
    Forall2 (ev_ok (dayof i) (day_instant sel_from d)) evs us.
  Proof.
    intros i us ss d. unfold ent, day_entry. cbv zeta.
    set (last := fst (List.last evs (0, {| tz_off := 0; tz_seasons := [] |}))).
    unfold overlap. fold last.
    destruct ((sel_from <? hrd_from + Z.of_nat i + (1 + last / 1440)) && (hrd_from + Z.of_nat i <? sel_to)) eqn:O;
      cbn [negb].
    2: { split; [discriminate |]. intros [_ [[O1 O2] _]]. exfalso.
         apply andb_false_iff in O. destruct O as [O | O]; apply Z.ltb_ge in O; lia. }
    apply andb_true_iff in O. destruct O as [O1 O2]. apply Z.ltb_lt in O1, O2.
    destruct (mem i days) eqn:M; cbn [negb].
    2: { split; [discriminate |]. intros [I _]. exfalso. apply mem_false in M. auto. }
    apply mem_In in M. fold (dayof i).
    assert (K : forall fdo d, Z.of_nat i - (sel_from - hrd_from - kTimetableOffset) + fdo / 1440 = Z.of_nat d ->
                fdo mod 1440 = 0 -> dayof i + fdo = day_instant sel_from d).
    { intros fdo d' E M0. unfold dayof, day_instant. pose proof (Z.div_mod fdo 1440). lia. }
    destruct (build_utc_time_seq evs (dayof i)) as [[us' fdo] |] eqn:B.
    - pose proof (proj1 (build_iff evs (dayof i) us' fdo evs_ok) B) as [B1 [B2 [B3 B4]]].
      set (dz := Z.of_nat i - (sel_from - hrd_from - kTimetableOffset) + fdo / 1440) in *.
      destruct (dz <? 0) eqn:D.
      + split; [discriminate |]. intros [_ [_ [_ [F1 [_ F2]]]]]. exfalso. apply Z.ltb_lt in D.
        destruct evs as [| [l z] r]; [inversion F2; subst; destruct F1 |].
        inversion F2 as [| ? u ? ur G1 G2 E1 E2]. subst. inversion B1 as [| ? u' ? ur' G3 G4 E3 E4]. subst.
        unfold ev_ok in G1, G3. cbn [fst snd] in G1, G3.
        assert (Wz : wf_tz z) by (apply (evs_ok (l, z)); left; reflexivity).
        pose proof (ev_instant_det z _ _ _ Wz G1 G3) as Eq. cbn in F1, B3.
        unfold day_instant, dayof in Eq. unfold dz in D. pose proof (Z.div_mod fdo 1440). lia.
      + apply Z.ltb_ge in D. specialize (K fdo (Z.to_nat dz)).
        rewrite Z2Nat.id in K by exact D. specialize (K eq_refl B4). split.
        * intros [= <- <- <-]. rewrite <- K.
          split; [exact M |]. split; [split; assumption |]. split; [reflexivity |].
          split; [exact B3 |]. split; [exact B2 | exact B1].
        * intros [_ [_ [-> [F1 [F3 F2]]]]].
          pose proof (fun Q => proj2 (build_iff evs (dayof i) us (day_instant sel_from d - dayof i) evs_ok) Q) as R.
          replace (dayof i + (day_instant sel_from d - dayof i)) with (day_instant sel_from d) in R by lia.
          assert (Md : (day_instant sel_from d - dayof i) mod 1440 = 0).
          { unfold day_instant, dayof. rewrite <- Z.mul_sub_distr_r. apply Z_mod_mult. }
          rewrite R in B by (repeat split; assumption). injection B as E1 E2.
          rewrite E1. f_equal. f_equal. unfold dz. rewrite <- E2.
          unfold day_instant, dayof. rewrite <- Z.mul_sub_distr_r, Z.div_mul by lia. lia.
    - split; [discriminate |]. intros [_ [_ [_ [F1 [F3 F2]]]]]. exfalso.
      pose proof (fun Q => proj2 (build_iff evs (dayof i) us (day_instant sel_from d - dayof i) evs_ok) Q) as R.
      replace (dayof i + (day_instant sel_from d - dayof i)) with (day_instant sel_from d) in R by lia.
      assert (Md : (day_instant sel_from d - dayof i) mod 1440 = 0).
      { unfold day_instant, dayof. rewrite <- Z.mul_sub_distr_r. apply Z_mod_mult. }
      rewrite R in B by (repeat split; assumption). discriminate.
  Qed.

  Lemma trips_pairs : forall m, loaded_trips sel_from m = map trip_of (pairs m).
  Proof.
    intros m. unfold loaded_trips, pairs. induction m as [| [k b] r IH]; [reflexivity |].
    cbn [flat_map]. rewrite map_app, IH, map_map. reflexivity.
  Qed.

  Lemma Forall2_shift : forall base es us, Forall2 (ev_ok base 0) es (map (fun t => 0 + t) us) <-> Forall2 (ev_ok base 0) es us.
  Proof. intros. rewrite (map_ext _ (fun t => t)) by (intros; lia). rewrite map_id. reflexivity. Qed.

  Lemma ev_ok_map : forall day base es us,
    Forall2 (ev_ok day base) es us <-> Forall2 (ev_ok day 0) es (map (fun t => base + t) us).
  Proof.
    intros day base. induction es as [| e es IH]; intros us; split; intros F.
    - inversion F. constructor.
    - destruct us; [constructor | inversion F].
    - inversion F as [| ? u ? ur F1 F2 E1 E2]. subst. constructor; [| apply IH; exact F2].
      unfold ev_ok in *. exact F1.
    - destruct us as [| u us]; [inversion F |]. cbn [map] in F. inversion F as [| ? ? ? ? F1 F2 E1 E2].
      constructor; [exact F1 | apply IH; exact F2].
  Qed.

  Lemma nondecreasing_map : forall base us, nondecreasing (map (fun t => base + t) us) <-> nondecreasing us.
  Proof.
    intros base. induction us as [| a [| b r] IH]; [tauto | tauto |].
    change (nondecreasing (map (fun t => base + t) (a :: b :: r)))
      with (base + a <= base + b /\ nondecreasing (map (fun t => base + t) (b :: r))).
    change (nondecreasing (a :: b :: r)) with (a <= b /\ nondecreasing (b :: r)).
    rewrite IH. split; intros [Q1 Q2]; (split; [lia | exact Q2]).
  Qed.

  (** The service days in absolute terms *)
  Definition serves (i : nat) (n : nat) (Us : list Z) : Prop :=
    (i < n)%nat /\ In i days /\ overlap i /\ nondecreasing Us /\ Forall2 (ev_ok (dayof i) 0) evs Us.

  Lemma serves_fun : forall i j n Us, evs <> [] -> serves i n Us -> serves j n Us -> i = j.
  Proof.
    intros i j n Us Ne [_ [_ [_ [_ A]]]] [_ [_ [_ [_ B]]]].
    destruct evs as [| [l z] r]; [congruence |].
    inversion A as [| ? u ? ur A1 A2 E1 E2]. subst. inversion B as [| ? u' ? ur' B1 B2 E3 E4]. subst.
    unfold ev_ok in A1, B1. cbn [fst snd] in A1, B1.
    assert (Wz : wf_tz z) by (apply (evs_ok (l, z)); left; reflexivity).
    pose proof (ev_instant_fun z _ _ _ Wz A1 B1) as E. unfold dayof in E. lia.
  Qed.

  Lemma serves_det : forall i n Us Us', serves i n Us -> serves i n Us' -> Us = Us'.
  Proof.
    intros i n Us Us' [_ [_ [_ [_ A]]]] [_ [_ [_ [_ B]]]]. revert Us Us' A B.
    assert (X : forall es, (forall e, In e es -> wf_tz (snd e)) -> forall us us',
      Forall2 (ev_ok (dayof i) 0) es us -> Forall2 (ev_ok (dayof i) 0) es us' -> us = us').
    { induction es as [| e es IH]; intros W us us' A B; inversion A; inversion B; subst; [reflexivity |].
      f_equal.
      - match goal with H : ev_ok _ _ e ?a, H' : ev_ok _ _ e ?b |- ?a = ?b =>
          unfold ev_ok in H, H'; pose proof (ev_instant_det (snd e) _ _ _ (W e (or_introl eq_refl)) H H') end. lia.
      - apply IH; auto. intros e' I. apply W. right. exact I. }
    intros. apply (X evs); auto. intros e I. apply evs_ok. exact I.
  Qed.

  Theorem days_exact : forall n, evs <> [] ->
    let out := fold_left f (seq 0 n) [] in
    (forall Us ss, In (Us, ss) (loaded_trips sel_from out) <->
       exists i, serves i n Us /\ ss = seq_of (Z.of_nat i) /\
         (sel_from - kTimetableOffset) * 1440 <= List.hd 0 Us) /\
    NoDup (map fst (loaded_trips sel_from out)).
  Proof.
    intros n Ne out.
    destruct (fold_days (seq 0 n) []) as [Mo Pr].
    { split; [constructor | intros k b []]. }
    fold out in Mo, Pr.
    assert (Pr' : forall x, In x (pairs out) <-> exists i, (i < n)%nat /\ ent i = Some x).
    { intros x. rewrite Pr. split.
      - intros [[] | [i [I E]]]. apply in_seq in I. exists i. split; [lia | exact E].
      - intros [i [I E]]. right. exists i. split; [apply in_seq; lia | exact E]. }
    assert (Fwd : forall k d, In (k, d) (pairs out) -> exists i, serves i n (fst (trip_of (k, d))) /\
               snd k = seq_of (Z.of_nat i) /\ first_ok (fst k)).
    { intros [us ss] d I. apply Pr' in I. destruct I as [i [L E]]. apply entry_iff in E.
      destruct E as [E1 [E2 [E3 [E4 [E5 E6]]]]]. exists i. split; [| split; [exact E3 | exact E4]].
      unfold trip_of. cbn [fst snd]. split; [exact L |]. split; [exact E1 |]. split; [exact E2 |].
      split; [apply (proj2 (nondecreasing_map _ _) E5) |]. exact (proj1 (ev_ok_map _ _ _ _) E6). }
    split.
    - intros Us ss. rewrite trips_pairs, in_map_iff. split.
      + intros [[k d] [E I]]. destruct (Fwd k d I) as [i [S1 [S2 S3]]]. unfold trip_of in *. cbn [fst snd] in *.
        injection E as <- <-. exists i. split; [exact S1 |]. split; [exact S2 |].
        destruct (fst k) as [| u r]; [destruct S3 |]. cbn in S3 |- *. unfold day_instant. lia.
      + intros [i [S1 [-> G]]]. destruct S1 as [L [Di [Ov [N F]]]].
        destruct Us as [| U0 Ur]; [exfalso; apply Ne; inversion F; reflexivity |]. cbn [List.hd] in G.
        set (d := Z.to_nat (U0 / 1440 - (sel_from - kTimetableOffset))).
        assert (P0 : (sel_from - kTimetableOffset) <= U0 / 1440) by (apply Z.div_le_lower_bound; lia).
        assert (Dd : day_instant sel_from d = U0 / 1440 * 1440).
        { unfold day_instant, d. rewrite Z2Nat.id by lia. lia. }
        exists ((map (fun t => t - day_instant sel_from d) (U0 :: Ur), seq_of (Z.of_nat i)), d).
        assert (Mm : map (fun t => day_instant sel_from d + t) (map (fun t => t - day_instant sel_from d) (U0 :: Ur)) = U0 :: Ur).
        { rewrite map_map. rewrite (map_ext _ (fun t => t)) by (intros; lia). apply map_id. }
        split; [unfold trip_of; cbn [fst snd]; rewrite Mm; reflexivity |].
        apply Pr'. exists i. split; [exact L |]. apply entry_iff.
        split; [exact Di |]. split; [exact Ov |]. split; [reflexivity |].
        split; [cbn; rewrite Dd; pose proof (Z.div_mod U0 1440); pose proof (Z.mod_pos_bound U0 1440); lia |].
        split.
        * apply (proj1 (nondecreasing_map (day_instant sel_from d) _)). rewrite Mm. exact N.
        * apply (proj2 (ev_ok_map _ _ _ _)). rewrite Mm. exact F.
    - rewrite trips_pairs, map_map. apply NoDup_map_inj; [| apply pairs_NoDup; exact Mo].
      intros [[us ss] d] [[us' ss'] d'] X Y E.
      destruct (Fwd _ _ X) as [i [S1 [S2 S3]]]. destruct (Fwd _ _ Y) as [j [T1 [T2 T3]]].
      pose proof S1 as S1'. rewrite E in S1'. pose proof (serves_fun i j n _ Ne S1' T1) as Ej. subst j.
      unfold trip_of in E. cbn [fst snd] in *. subst ss ss'.
      destruct us as [| u ur]; [destruct S3 |]. destruct us' as [| u' ur']; [destruct T3 |].
      cbn [map] in E. injection E as E1 E2. cbn in S3, T3. unfold day_instant in E1.
      assert (d = d') by lia. subst d'. assert (u = u') by lia. subst u'.
      assert (ur = ur').
      { clear - E2. revert ur' E2. induction ur as [| a ur IH]; intros [| b ur'] E2; try discriminate; [reflexivity |].
        cbn [map] in E2. injection E2 as A B. f_equal; [lia | apply IH; exact B]. }
      subst ur'. reflexivity.
  Qed.
End Days.
