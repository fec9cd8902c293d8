(** Alternatives: soundness, completeness; improvement of interior rides. *)
From Coq Require Import List ZArith Bool Arith Lia Sorting.Sorted.
From Verif Require Import Base Time_Model Raptor_Model Raptor_Spec Raptor_Base Raptor_Sound Rec_Model Rec_Spec Rec_Proofs Rec_Opt Direct_Model Direct_Spec
  Direct_Proofs Direct_Stream Direct_Order P_Direct Alt_Model Alt_Spec Alt_Proofs.
From Verif Require Query_Model.
Import ListNotations.
Local Open Scope Z_scope.

Lemma is_transit_spec g : is_transit g = true <-> is_ride g.
Proof.
  unfold is_transit, is_ride. destruct (l_uses g); split; try discriminate; try (intros (? & ? & ? & ? & ? & H); discriminate); eauto 10.
Qed.
Lemma is_transit_false g : is_transit g = false <-> ~ is_ride g.
Proof. rewrite <- is_transit_spec. destruct (is_transit g); split; congruence. Qed.

Lemma nth_error_firstn {A} n : forall (l : list A) k, nth_error (firstn n l) k = if (k <? n)%nat then nth_error l k else None.
Proof.
  induction n as [|n IH]; intros l k; [destruct k; reflexivity|]. destruct l as [|x l]; cbn [firstn].
  - destruct (k <? S n)%nat, k; reflexivity.
  - destruct k as [|k]; [reflexivity|]. cbn [nth_error]. rewrite IH. reflexivity.
Qed.
Lemma nth_error_skipn {A} n : forall (l : list A) k, nth_error (skipn n l) k = nth_error l (n + k).
Proof. induction n as [|n IH]; intros l k; [reflexivity|]. destruct l as [|x l]; cbn [skipn]; [destruct k; reflexivity|]. apply IH. Qed.
Lemma nth_error_rev {A} (l : list A) k : nth_error (rev l) k = if (k <? length l)%nat then nth_error l (length l - S k) else None.
Proof.
  destruct (Nat.ltb_spec k (length l)) as [H|H]; [|apply nth_error_None; rewrite rev_length; exact H].
  destruct l as [|d l0] eqn:E; [cbn in H; lia|]. rewrite <- E in *.
  rewrite (nth_error_nth' (rev l) d) by (rewrite rev_length; exact H). rewrite (nth_error_nth' l d) by lia. now rewrite rev_nth.
Qed.
Lemma find_first {A} (f : A -> bool) l x : find f l = Some x <->
  exists k, nth_error l k = Some x /\ f x = true /\ forall m y, (m < k)%nat -> nth_error l m = Some y -> f y = false.
Proof.
  induction l as [|a l IH]; cbn [find].
  - split; [discriminate|]. intros (k & H & _). destruct k; discriminate.
  - destruct (f a) eqn:E.
    + split.
      * intros [= ->]. exists 0%nat. split; [reflexivity|]. split; [exact E|]. intros m y Hm. lia.
      * intros ([|k] & H1 & H2 & H3); [exact H1|]. specialize (H3 0%nat a ltac:(lia) eq_refl). congruence.
    + rewrite IH. split.
      * intros (k & H1 & H2 & H3). exists (S k). split; [exact H1|]. split; [exact H2|]. intros [|m] y Hm Hy; [cbn in Hy; congruence|].
        apply (H3 m y); [lia|exact Hy].
      * intros ([|k] & H1 & H2 & H3); [cbn in H1; congruence|]. exists k. split; [exact H1|]. split; [exact H2|].
        intros m y Hm Hy. apply (H3 (S m) y); [lia|exact Hy].
Qed.
Lemma prev_spec j i p : (i <= length j)%nat -> prev_transit j i = Some p <-> ride_before j i p.
Proof.
  intros Hi. unfold prev_transit. rewrite find_first. unfold ride_before.
  assert (N : forall k, (k < i)%nat -> nth_error (rev (firstn i j)) k = nth_error j (i - 1 - k)).
  { intros k Hk. rewrite nth_error_rev. rewrite firstn_length, Nat.min_l by lia.
    replace (k <? i)%nat with true by (symmetry; apply Nat.ltb_lt; lia).
    rewrite nth_error_firstn. replace (i - S k <? i)%nat with true by (symmetry; apply Nat.ltb_lt; lia). f_equal. lia. }
  assert (LN : forall k x, nth_error (rev (firstn i j)) k = Some x -> (k < i)%nat).
  { intros k x Hx. assert (k < length (rev (firstn i j)))%nat by (apply nth_error_Some; congruence). rewrite rev_length, firstn_length in H. lia. }
  split.
  - intros (k & H1 & H2 & H3). pose proof (LN _ _ H1) as Lk. rewrite N in H1 by auto. exists (i - 1 - k)%nat.
    split; [lia|]. split; [exact H1|]. split; [now apply is_transit_spec|]. intros m h Hm Hh. apply is_transit_false.
    apply (H3 (i - 1 - m)%nat h); [lia|]. rewrite N by lia. rewrite <- Hh. f_equal. lia.
  - intros (k & H0 & H1 & H2 & H3). exists (i - 1 - k)%nat. rewrite N by lia. split; [rewrite <- H1; f_equal; lia|].
    split; [now apply is_transit_spec|]. intros m y Hm Hy. rewrite N in Hy by lia. apply is_transit_false. eapply (H3 (i - 1 - m)%nat); [lia|exact Hy].
Qed.
Lemma next_spec j i p : next_transit j i = Some p <-> ride_after j i p.
Proof.
  unfold next_transit. rewrite find_first. unfold ride_after.
  assert (N : forall k, nth_error (skipn (S i) j) k = nth_error j (S i + k)) by (intros; apply nth_error_skipn).
  split.
  - intros (k & H1 & H2 & H3). rewrite N in H1. exists (S i + k)%nat.
    split; [lia|]. split; [exact H1|]. split; [now apply is_transit_spec|]. intros m h Hm Hh. apply is_transit_false.
    apply (H3 (m - S i)%nat h); [lia|]. rewrite N. rewrite <- Hh. f_equal. lia.
  - intros (k & H0 & H1 & H2 & H3). exists (k - S i)%nat. rewrite N. split; [rewrite <- H1; f_equal; lia|].
    split; [now apply is_transit_spec|]. intros m y Hm Hy. rewrite N in Hy. apply is_transit_false. eapply (H3 (S i + m)%nat); [lia|exact Hy].
Qed.
Lemma find_none_iff {A} (f : A -> bool) l : find f l = None <-> forall x, In x l -> f x = false.
Proof. split; [apply find_none|]. induction l as [|a l IH]; [reflexivity|]. cbn. intros H. rewrite (H a) by auto. apply IH. auto. Qed.
Lemma prev_none j i : (i <= length j)%nat -> prev_transit j i = None <-> no_ride_before j i.
Proof.
  intros Hi. unfold prev_transit, no_ride_before. rewrite find_none_iff. split.
  - intros H m h Hm Hh. apply is_transit_false, H. apply -> in_rev. apply (nth_error_In _ m). rewrite nth_error_firstn.
    replace (m <? i)%nat with true by (symmetry; apply Nat.ltb_lt; lia). exact Hh.
  - intros H x Hx. apply in_rev, In_nth_error in Hx. destruct Hx as (m & Hm). rewrite nth_error_firstn in Hm.
    destruct (Nat.ltb_spec m i); [|discriminate]. apply is_transit_false. eauto.
Qed.
Lemma next_none j i : next_transit j i = None <-> no_ride_after j i.
Proof.
  unfold next_transit, no_ride_after. rewrite find_none_iff. split.
  - intros H m h Hm Hh. apply is_transit_false, H. apply (nth_error_In _ (m - S i)). rewrite nth_error_skipn. rewrite <- Hh. f_equal. lia.
  - intros H x Hx. apply In_nth_error in Hx. destruct Hx as (m & Hm). rewrite nth_error_skipn in Hm. apply is_transit_false. eapply (H (S i + m)%nat); [lia|exact Hm].
Qed.

Lemma hd_app {A} (pre : list A) g post d : hd d (pre ++ g :: post) = hd g pre.
Proof. destruct pre; reflexivity. Qed.
Lemma last_app_cons {A} (pre : list A) g post d : last (pre ++ g :: post) d = last post g.
Proof.
  induction pre as [|x pre IH]; cbn [app].
  - revert g. induction post as [|y post IH]; intros g; [reflexivity|]. change (last (g :: y :: post) d) with (last (y :: post) d). rewrite IH.
    destruct post as [|z p]; [reflexivity|]. change (last (y :: z :: p) g) with (last (z :: p) g).
    clear. revert z. induction p as [|w p IH]; intros z; [reflexivity|]. apply (IH w).
  - destruct (pre ++ g :: post) eqn:E; [destruct pre; discriminate|]. exact IH.
Qed.

Section Alts.
  Variable P : params.
  Variable L : Query_Model.locations.
  Hypothesis Hwf : all_vehicles_wf P.
  Hypothesis Hreq : no_flags_required P.

  Lemma direct_to_on DQ j : direct P L DQ j -> exists ri vi day r v, direct_on P L DQ ri vi day r v (j_dep j) (j_arr j) j.
  Proof.
    intros [pre g post G S1 S2]. apply (ride_leg_data P Hreq) in G. destruct G as (ri & vi & day & from & to & r & v & G).
    exists ri, vi, day, r, v, pre, g, post, from, to. split; [reflexivity|]. split; [exact G|]. split; [exact S1|]. split; [exact S2|].
    unfold j_dep, j_arr. rewrite hd_app, last_app_cons. lia.
  Qed.
  Lemma on_to_direct DQ ri vi day r v lo hi j : direct_on P L DQ ri vi day r v lo hi j ->
    direct P L DQ j /\ lo <= j_dep j /\ j_arr j <= hi /\ exists g a b, In g j /\ l_uses g = Ride ri vi day a b.
  Proof.
    intros (pre & g & post & from & to & -> & G & S1 & S2 & B1 & B2).
    split; [constructor; auto; apply (ride_leg_data P Hreq); eauto 10|].
    unfold j_dep, j_arr. rewrite hd_app, last_app_cons. split; [auto|]. split; [auto|].
    exists g, from, to. split; [apply in_or_app; right; now left|apply G].
  Qed.

  Variables day_lo day_hi : Z.
  Variable pl : Z * Z * nat * nat -> Z * Z * nat * nat -> bool.
  Variable sched : nat -> nat -> Z -> option (nat * nat * Z).
  Hypothesis Hmono : settings_monotone P.
  Hypothesis Hfp : forall a l d, In (l, d) (tt_footpaths_out (p_tt P) a) -> 0 <= d.

  Lemma key_refl k : key_eqb k k = true.
  Proof. destruct k as [[[a b] c]|]; [|reflexivity]. cbn. rewrite !Nat.eqb_refl, Z.eqb_refl. reflexivity. Qed.
  Lemma same_ride_refl ri vi day a b : same_ride P sched (Ride ri vi day a b) (Ride ri vi day a b) = true.
  Proof. cbn. rewrite key_refl, !Nat.eqb_refl. reflexivity. Qed.
  Lemma not_original_spec o j g : is_ride (mk_leg 0 0 0 0 o) -> not_original P sched o j = true -> In g j -> l_uses g <> o.
  Proof.
    intros (ri & vi & day & a & b & E) H Hg Eo. cbn in E. unfold not_original in H. apply negb_true_iff in H.
    assert (X : existsb (fun g => is_transit g && same_ride P sched (l_uses g) o) j = true); [|congruence].
    apply existsb_exists. exists g. split; [exact Hg|]. rewrite Eo, E, same_ride_refl. unfold is_transit. rewrite Eo, E. reflexivity.
  Qed.
  Lemma firstn_In {A} n (l : list A) x : In x (firstn n l) -> In x l.
  Proof. revert l; induction n as [|n IH]; intros [|y l]; cbn; auto; [intros []|]. intros [->|H]; auto. Qed.
  Lemma take_while_In {A} (f : A -> bool) l x : In x (take_while f l) -> In x l /\ f x = true.
  Proof.
    induction l as [|y l IH]; [intros []|]. cbn. destruct (f y) eqn:E; [|intros []]. intros [<-|H]; [auto|]. destruct (IH H). auto.
  Qed.

  Lemma alternatives_sound DQ b anchor maxarr o n out alt :
    ends_ok L DQ true -> ends_ok L DQ false -> is_ride (mk_leg 0 0 0 0 o) ->
    alternatives_of P L day_lo day_hi pl sched DQ b anchor maxarr o n out -> In alt out ->
    direct P L DQ alt /\ (forall g, In g alt -> l_uses g <> o) /\
    (if b then anchor <= j_dep alt /\ (forall m, maxarr = Some m -> j_arr alt <= m) else j_arr alt <= anchor).
  Proof.
    intros E1 E2 Ho (stream & M & ->) H. apply firstn_In in H. apply filter_In in H. destruct H as (H & HN).
    apply in_map_iff in H. destruct H as (x & <- & Hx).
    assert (Hs : In x stream) by (destruct b; [apply take_while_In in Hx; apply Hx|exact Hx]).
    destruct (C60_sound (with_dir b P) L DQ day_lo day_hi anchor stream x (wf_dir b P Hwf) M Hs) as (D & T).
    apply direct_dir in D. destruct (direct_to_on _ _ D) as (ri & vi & day & r & v & On).
    apply (optimize_direct P L DQ Hwf Hmono Hfp E1 E2 ri vi day r v pl) in On.
    destruct (on_to_direct _ _ _ _ _ _ _ _ _ On) as (D' & B1 & B2 & _).
    split; [exact D'|]. split; [intros g Hg; eapply not_original_spec; eauto|].
    change (p_fwd (with_dir b P)) with b in T. destruct b.
    - split; [lia|]. intros m ->. apply take_while_In in Hx. destruct Hx as (_ & Hx). apply Z.leb_le in Hx. lia.
    - lia.
  Qed.

  Lemma take_while_sorted (m : option Z) stream x : StronglySorted (fun a b => j_arr a <= j_arr b) stream -> In x stream ->
    let fits := fun j => match m with None => true | Some m => j_arr j <=? m end in fits x = true -> In x (take_while fits stream).
  Proof.
    intros S Hx fits F. induction S as [|y l S IH A]; [destruct Hx|]. cbn [take_while].
    assert (Fy : fits y = true).
    { destruct Hx as [->|Hx]; [exact F|]. rewrite Forall_forall in A. specialize (A _ Hx). unfold fits in *. destruct m; [|reflexivity].
      apply Z.leb_le in F. apply Z.leb_le. lia. }
    rewrite Fy. destruct Hx as [->|Hx]; [now left|right; auto].
  Qed.

  (** A vehicle of the stream is among the alternatives, unless enough others were found or it counts as the original one. *)
  Lemma alternatives_complete DQ b anchor maxarr ro vo dayo a0 b0 n out :
    ends_ok L DQ true -> ends_ok L DQ false -> columns_sorted (with_dir b P) -> fifo (with_dir b P) ->
    alternatives_of P L day_lo day_hi pl sched DQ b anchor maxarr (Ride ro vo dayo a0 b0) n out -> (length out < n)%nat ->
    exists stream, direct_journeys (with_dir b P) L DQ day_lo day_hi anchor stream /\
      forall x, In x stream -> (b = true -> forall m, maxarr = Some m -> j_arr x <= m) ->
        forall g ri vi day s t, In g x -> l_uses g = Ride ri vi day s t -> key_eqb (sched ri vi day) (sched ro vo dayo) = false ->
        exists alt g' a' b', In alt out /\ In g' alt /\ l_uses g' = Ride ri vi day a' b' /\ j_dep x <= j_dep alt /\ j_arr alt <= j_arr x.
  Proof.
    intros E1 E2 Hc Hf (stream & M & ->) Hn. exists stream. split; [exact M|]. intros x Hx Ha g ri vi day s t Hg Ug HK.
    destruct (C60_sound (with_dir b P) L DQ day_lo day_hi anchor stream x (wf_dir b P Hwf) M Hx) as (D & T).
    apply direct_dir in D. destruct (direct_to_on _ _ D) as (ri' & vi' & day' & r' & v' & On).
    assert (V : forall ri' vi' day' r' v' lo hi y h a c e a' c', direct_on P L DQ ri' vi' day' r' v' lo hi y -> In h y -> l_uses h = Ride a c e a' c' -> a = ri' /\ c = vi' /\ e = day').
    { clear. intros ri' vi' day' r' v' lo hi y h a c e a' c' (pre & gg & post & from & to & -> & G & S1 & S2 & _) Hh U.
      apply in_app_or in Hh. destruct Hh as [Hh|[<-|Hh]].
      - destruct (side_shape _ _ _ _ _ _ _ S1) as [->|(z & o & d & -> & _ & _ & _ & _ & _ & Y)]; [destruct Hh|].
        destruct Hh as [<-|[]]. destruct Y as [(_ & Y)|(_ & Y)]; rewrite Y in U; discriminate.
      - destruct G as (G & _). rewrite G in U. injection U. auto.
      - destruct (side_shape _ _ _ _ _ _ _ S2) as [->|(z & o & d & -> & _ & _ & _ & _ & _ & Y)]; [destruct Hh|].
        destruct Hh as [<-|[]]. destruct Y as [(_ & Y)|(_ & Y)]; rewrite Y in U; discriminate. }
    destruct (V _ _ _ _ _ _ _ _ _ _ _ _ _ _ On Hg Ug) as (<- & <- & <-).
    apply (optimize_direct P L DQ Hwf Hmono Hfp E1 E2 ri vi day r' v' pl) in On.
    destruct (on_to_direct _ _ _ _ _ _ _ _ _ On) as (D' & B1 & B2 & g' & a' & b' & Hg' & Ug').
    exists (optimize P pl DQ x), g', a', b'. split; [|auto].
    assert (F : forall (l : list (list leg)) z, (length (firstn n l) < n)%nat -> In z l -> In z (firstn n l)).
    { clear. intros l z Hl Hz. rewrite firstn_length in Hl. rewrite firstn_all2; [exact Hz|lia]. }
    apply F; [exact Hn|]. apply filter_In. split.
    - apply in_map. destruct b; [|exact Hx]. apply take_while_sorted; [|exact Hx|].
      + pose proof (stream_sorted (with_dir true P) L DQ day_lo day_hi (wf_dir true P Hwf) anchor stream Hc Hf M) as SS.
        exact SS.
      + destruct maxarr as [m|]; [|reflexivity]. apply Z.leb_le. auto.
    - unfold not_original. apply negb_true_iff. destruct (existsb _ _) eqn:EX; [|reflexivity]. exfalso.
      apply existsb_exists in EX. destruct EX as (h & Hh & EX). apply andb_true_iff in EX. destruct EX as (T1 & T2).
      apply is_transit_spec in T1. destruct T1 as (a & c & e & x1 & x2 & U1). rewrite U1 in T2. cbn [same_ride] in T2.
      destruct (V _ _ _ _ _ _ _ _ _ _ _ _ _ _ On Hh U1) as (-> & -> & ->). rewrite HK in T2. discriminate.
  Qed.
End Alts.
