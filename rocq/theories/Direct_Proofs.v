(** Proofs about direct journeys (Direct_Model against Direct_Spec). *)
From Coq Require Import List ZArith Bool Arith Lia Permutation Sorting.Sorted.
From Verif Require Import Base Time_Model Raptor_Model Raptor_Spec Rec_Model Rec_Spec Direct_Model Direct_Spec.
From Verif Require Query_Model.
Import ListNotations.
Local Open Scope Z_scope.

(** ** Merging sorted generators *)
Section Merge.
  Variable P : params.
  Notation fwd := (p_fwd P).
  Definition mkey (j : list leg) : Z := if fwd then j_arr j else - j_dep j.
  Lemma head_before_key x y : head_before P x y = (mkey x <? mkey y).
  Proof. unfold head_before, mkey. destruct (p_fwd P); [reflexivity|]. destruct (Z.ltb_spec (j_dep y) (j_dep x)), (Z.ltb_spec (- j_dep x) (- j_dep y)); auto; lia. Qed.

  Lemma merged_perm gs out : merged P gs out -> Permutation (concat gs) out.
  Proof.
    induction 1 as [gs H|gs1 x xs gs2 out H M IH].
    - assert (E : concat gs = []); [|now rewrite E].
      induction gs as [|g gs IHg]; [reflexivity|]. cbn. rewrite (H g (or_introl eq_refl)). apply IHg. intros g' G. apply H. now right.
    - rewrite concat_app in *. cbn [concat] in *.
      transitivity (x :: concat gs1 ++ xs ++ concat gs2); [|now constructor].
      cbn. symmetry. apply Permutation_middle.
  Qed.

  Lemma merged_sorted gs out : merged P gs out ->
    (forall g, In g gs -> StronglySorted (fun x y => mkey x <= mkey y) g) -> StronglySorted (fun x y => mkey x <= mkey y) out.
  Proof.
    induction 1 as [gs H|gs1 x xs gs2 out H M IH]; intros HS; [constructor|].
    assert (HX : StronglySorted (fun a b => mkey a <= mkey b) (x :: xs)) by (apply HS, in_elt).
    inversion HX as [|? ? S1 F1]; subst.
    constructor.
    - apply IH. intros g G. apply in_app_or in G. destruct G as [G|[<-|G]]; [apply HS, in_or_app; auto|exact S1|apply HS, in_or_app; right; now right].
    - apply Forall_forall. intros y Hy. apply merged_perm in M. apply (Permutation_in _ (Permutation_sym M)) in Hy.
      apply in_concat in Hy. destruct Hy as (g & G & Hy). apply in_app_or in G. destruct G as [G|[<-|G]].
      + destruct g as [|h hs]; [destruct Hy|]. specialize (H h hs (in_or_app _ _ _ (or_introl G))). rewrite head_before_key in H.
        apply Z.ltb_ge in H. specialize (HS (h :: hs) (in_or_app _ _ _ (or_introl G))). inversion HS as [|? ? S2 F2]; subst.
        destruct Hy as [<-|Hy]; [lia|]. rewrite Forall_forall in F2. specialize (F2 _ Hy). cbv beta in F2. lia.
      + rewrite Forall_forall in F1. apply F1; auto.
      + assert (G' : In g (gs1 ++ gs2)) by (apply in_or_app; auto).
        destruct g as [|h hs]; [destruct Hy|]. specialize (H h hs G'). rewrite head_before_key in H.
        apply Z.ltb_ge in H. assert (HS2 : StronglySorted (fun x y => mkey x <= mkey y) (h :: hs)) by (apply HS, in_or_app; right; now right).
        inversion HS2 as [|? ? S2 F2]; subst.
        destruct Hy as [<-|Hy]; [lia|]. rewrite Forall_forall in F2. specialize (F2 _ Hy). cbv beta in F2. lia.
  Qed.

  (** The queue always finds a head. *)
  Lemma min_head gs : (forall g, In g gs -> g = []) \/
    exists gs1 x xs gs2, gs = gs1 ++ (x :: xs) :: gs2 /\ forall y ys, In (y :: ys) gs -> mkey x <= mkey y.
  Proof.
    induction gs as [|g gs IH]; [left; intros ? []|].
    destruct IH as [IH|(gs1 & x & xs & gs2 & -> & IH)].
    - destruct g as [|x xs].
      + left. intros g [<-|G]; auto.
      + right. exists [], x, xs, gs. split; [reflexivity|]. intros y ys [[= <- <-]|G]; [lia|]. specialize (IH _ G). discriminate.
    - destruct g as [|y ys].
      + right. exists ([] :: gs1), x, xs, gs2. split; [reflexivity|]. intros z zs [E|G]; [discriminate|]. eapply IH; eauto.
      + destruct (Z_le_gt_dec (mkey x) (mkey y)) as [LE|GT].
        * right. exists ((y :: ys) :: gs1), x, xs, gs2. split; [reflexivity|]. intros z zs [[= <- <-]|G]; [exact LE|]. eapply IH; eauto.
        * right. exists [], y, ys, (gs1 ++ (x :: xs) :: gs2). split; [reflexivity|]. intros z zs [[= <- <-]|G]; [lia|].
          specialize (IH _ _ G). lia.
  Qed.
  Lemma merged_total gs : exists out, merged P gs out.
  Proof.
    remember (length (concat gs)) as n eqn:E. revert gs E. induction n as [n IH] using lt_wf_ind. intros gs E.
    destruct (min_head gs) as [H|(gs1 & x & xs & gs2 & -> & H)].
    - exists []. now constructor.
    - destruct (IH (length (concat (gs1 ++ xs :: gs2)))) with (gs := gs1 ++ xs :: gs2) as (out & M); auto.
      + subst n. rewrite !concat_app, !app_length. cbn [concat]. rewrite !app_length. cbn [length]. lia.
      + exists (x :: out). constructor; [|exact M]. intros y ys G. rewrite head_before_key. apply Z.ltb_ge. apply (H y ys).
        apply in_app_or in G. apply in_or_app. destruct G as [G|G]; [now left|right; now right].
  Qed.
End Merge.

(** ** Access *)
Lemma inter_mode m : is_intermodal_mode m = true -> m = Query_Model.kIntermodal.
Proof. destruct m; auto; discriminate. Qed.
Section Access.
  Variable P : params.
  Variable L : Query_Model.locations.
  Variable Q : dquery.
  Notation tt := (p_tt P).
  Notation access := (access P L Q).

  Lemma best_footpath_gen fps loc acc :
    let f := fun eff (fp : nat * Z) => if Nat.eqb (fst fp) loc then (let adj := p_adjust P (snd fp) in if adj <? eff then adj else eff) else eff in
    fold_left f fps acc <= acc /\
    (fold_left f fps acc < acc -> exists d, In (loc, d) fps /\ fold_left f fps acc = p_adjust P d) /\
    (forall d, In (loc, d) fps -> fold_left f fps acc <= p_adjust P d).
  Proof.
    intros f. revert acc. induction fps as [|[l d] fps IH]; intros acc; cbn [fold_left].
    - split; [lia|]. split; [lia|]. intros d [].
    - destruct (IH (f acc (l, d))) as (A & B & C).
      assert (F : f acc (l, d) <= acc /\ (f acc (l, d) < acc -> l = loc /\ f acc (l, d) = p_adjust P d) /\ (l = loc -> f acc (l, d) <= p_adjust P d)).
      { unfold f. cbn [fst snd]. destruct (Nat.eqb_spec l loc) as [->|N]; [|split; [lia|split; [lia|congruence]]].
        cbv zeta. destruct (Z.ltb_spec (p_adjust P d) acc); split; try lia; split; intros; auto; lia. }
      destruct F as (F1 & F2 & F3). split; [lia|]. split.
      + intros H. destruct (Z_lt_ge_dec (fold_left f fps (f acc (l, d))) (f acc (l, d))) as [LT|GE].
        * destruct (B LT) as (d' & I & E). exists d'. split; [now right|exact E].
        * destruct F2 as (-> & E); [lia|]. exists d. split; [now left|]. lia.
      + intros d' [[= -> ->]|I]; [|auto]. specialize (F3 eq_refl). lia.
  Qed.

  Variable b : bool.
  Variable loc : nat.

  (** Invariant of the search for the shortest walk. *)
  Definition lk_inv (st : Z * nat) : Prop := fst st < fp_max_duration -> access b loc (snd st) (fst st).

  Lemma lookup_step_inv o st l : is_intermodal_mode (side_mode Q b) = false ->
    In o (side_offsets Q b) -> In l (Query_Model.metas L (side_mode Q b) (fst o)) -> lk_inv st -> lk_inv (lookup_step P Q b loc o st l).
  Proof.
    intros NI Ho Hl I. destruct o as [o d]. cbn [fst snd] in *.
    assert (NI' : mode_of Q b <> Query_Model.kIntermodal) by (unfold mode_of, side_mode in *; intros E; rewrite E in NI; discriminate).
    unfold lookup_step. cbn [fst snd].
    set (st1 := if _ && _ then _ else st).
    assert (I1 : lk_inv st1).
    { unfold st1. destruct (Nat.eqb_spec l loc) as [->|]; [|exact I]. cbn [andb]. destruct (d <? fst st); [|exact I].
      intros _. cbn [fst snd]. destruct (side_mode Q b) eqn:E; cbn [is_exact_mode].
      - apply access_exact; auto. destruct Hl as [<-|[]]. reflexivity.
      - rewrite Z.add_0_r. apply access_here; auto; unfold mode_of; unfold side_mode in E; rewrite E; auto; discriminate.
      - rewrite Z.add_0_r. apply access_here; auto; unfold mode_of; unfold side_mode in E; rewrite E; auto; discriminate.
      - discriminate NI. }
    destruct (side_use_footpaths Q b) eqn:U; [|exact I1]. cbn [negb].
    destruct (best_footpath_gen (side_footpaths P b l) loc fp_max_duration) as (A & B & _).
    unfold best_footpath. cbv zeta in *.
    set (eff := fold_left _ _ _) in *.
    destruct (Z.leb_spec fp_max_duration eff) as [|LT]; [exact I1|].
    destruct (d + eff <? fst st1); [|exact I1].
    intros _. cbn [fst snd]. destruct (B LT) as (d1 & I2 & ->). apply access_walk with (l := l); auto.
    intros ->. exact U.
  Qed.

  Lemma lookup_best_inv : is_intermodal_mode (side_mode Q b) = false -> lk_inv (lookup_best P L Q b loc).
  Proof.
    intros NI. unfold lookup_best.
    assert (G : forall os st, incl os (side_offsets Q b) -> lk_inv st ->
      lk_inv (fold_left (fun st (o : nat * Z) => fold_left (lookup_step P Q b loc o) (Query_Model.metas L (side_mode Q b) (fst o)) st) os st)).
    { induction os as [|o os IH]; intros st HI I; [exact I|]. cbn [fold_left]. apply IH; [intros x X; apply HI; now right|].
      assert (G2 : forall ls st', incl ls (Query_Model.metas L (side_mode Q b) (fst o)) -> lk_inv st' -> lk_inv (fold_left (lookup_step P Q b loc o) ls st')).
      { induction ls as [|l ls IHl]; intros st' HI' I'; [exact I'|]. cbn [fold_left]. apply IHl; [intros x X; apply HI'; now right|].
        apply lookup_step_inv; auto; [apply HI|apply HI']; now left. }
      apply G2; [apply incl_refl|exact I]. }
    apply G; [apply incl_refl|]. intros H. cbn in H. unfold fp_max_duration in H. lia.
  Qed.

  (** The leg found has the shape of the specification. *)
  Lemma lookup_access_sound t g : lookup_access P L Q b loc t = Some g ->
    exists o d, access b loc o d /\ outer_loc b g = o /\ inner_loc b g = loc /\ inner_time b g = t /\
      outer_time b g = (if b then t - d else t + d) /\ l_uses g = (match mode_of Q b with Query_Model.kIntermodal => Offs loc d | _ => Foot (l_to g) d end) /\
      (is_intermodal_mode (side_mode Q b) = false -> exists x, l_uses g = Foot x d) /\
      d = (if is_intermodal_mode (side_mode Q b) then match find (fun o : nat * Z => Nat.eqb (fst o) loc) (side_offsets Q b) with Some o => snd o | None => 0 end
           else fst (lookup_best P L Q b loc)).
  Proof.
    unfold lookup_access. destruct (is_intermodal_mode (side_mode Q b)) eqn:NI.
    - unfold lookup_offset. destruct (find _ (side_offsets Q b)) as [[o d]|] eqn:E; [|discriminate].
      apply find_some in E. destruct E as (Hin & He). cbn in He. apply Nat.eqb_eq in He. subst o. cbn [snd].
      intros [= <-]. exists (if b then dq_START Q else dq_END Q), d. split; [apply access_offset; auto; exact (inter_mode _ NI)|].
      assert (M : mode_of Q b = Query_Model.kIntermodal) by exact (inter_mode _ NI). rewrite M.
      do 4 (split; [destruct b; reflexivity|]). split; [destruct b; reflexivity|]. split; [discriminate|reflexivity].
    - unfold lookup_footpath. pose proof (lookup_best_inv NI) as I. destruct (lookup_best P L Q b loc) as [best src]. unfold lk_inv in I. cbn [fst snd] in *.
      destruct (Z.leb_spec fp_max_duration best) as [|LT]; [discriminate|]. intros [= <-].
      exists src, best. split; [auto|].
      assert (M : mode_of Q b <> Query_Model.kIntermodal) by (intros M; change (side_mode Q b) with (mode_of Q b) in NI; rewrite M in NI; discriminate).
      do 4 (split; [destruct b; reflexivity|]). split; [destruct b, (mode_of Q _); try reflexivity; congruence|].
      split; [intros _; destruct b; eexists; reflexivity|reflexivity].
  Qed.

  Lemma in_collect : is_in (collect_locations P L Q b) loc = true <-> exists o d, access b loc o d.
  Proof.
    unfold is_in. rewrite existsb_exists. unfold collect_locations.
    assert (MM : mode_of Q b = side_mode Q b) by reflexivity.
    destruct (is_intermodal_mode (side_mode Q b)) eqn:NI.
    - assert (Em : mode_of Q b = Query_Model.kIntermodal) by (rewrite MM; destruct (side_mode Q b); try discriminate; reflexivity).
      split.
      + intros (x & Hx & Ex). apply Nat.eqb_eq in Ex. subst x. apply in_map_iff in Hx. destruct Hx as ([l d] & E & Hin). cbn in E. subst l.
        eexists _, d. apply access_offset; auto.
      + intros (o & d & HA). inversion HA; subst; try congruence. exists loc. split; [|apply Nat.eqb_refl]. apply in_map_iff. exists (loc, d). auto.
    - assert (Em : mode_of Q b <> Query_Model.kIntermodal) by (rewrite MM; intros E; rewrite E in NI; discriminate).
      split.
      + intros (x & Hx & Ex). apply Nat.eqb_eq in Ex. subst x. apply in_flat_map in Hx. destruct Hx as ([o d] & Ho & Hx).
        apply in_flat_map in Hx. destruct Hx as (l & Hl & [->|Hx]).
        * destruct (side_mode Q b) eqn:E; try discriminate NI.
          -- destruct Hl as [<-|[]]. eexists _, _. eapply access_exact; eauto.
          -- exists o, d. apply access_here; auto; rewrite MM; auto; discriminate.
          -- exists o, d. apply access_here; auto; rewrite MM; auto; discriminate.
        * destruct (side_use_footpaths Q b) eqn:U; [|destruct Hx]. apply in_map_iff in Hx. destruct Hx as ([l' d1] & E & Hin). cbn in E. subst l'.
          exists o, (d + p_adjust P d1). apply access_walk with (l := l); auto. intros ->. exact U.
      + intros (o & d & HA). exists loc. split; [|apply Nat.eqb_refl]. apply in_flat_map.
        inversion HA as [d' Hm Hi|o' d0 H1 Hi H3 H4|o' d0 Hi H2 H3|o' d0 l d1 H1 Hi H3 H4 H5]; subst; try congruence.
        * exists (o, d). split; [auto|]. apply in_flat_map. exists loc. split; [auto|now left].
        * exists (o, d0). split; [auto|]. apply in_flat_map. exists o. rewrite <- MM, H2. split; [now left|now left].
        * exists (o, d0). split; [auto|]. apply in_flat_map. exists l. split; [auto|]. right.
          assert (U : side_use_footpaths Q b = true) by (unfold side_use_footpaths; destruct b; auto). rewrite U.
          apply in_map_iff. exists (loc, d1). auto.
  Qed.

  Hypothesis OK : offsets_ok Q b.

  Lemma step1_le (o : nat * Z) (st : Z * nat) l (st1 : Z * nat) : is_exact_mode (side_mode Q b) = false ->
    st1 = (if Nat.eqb l loc && (snd o <? fst st)
           then (snd o + (if is_exact_mode (side_mode Q b) then p_adjust P (tt_transfer_time tt l) else 0), fst o) else st) ->
    fst st1 <= fst st /\ (l = loc -> fst st1 <= snd o).
  Proof.
    intros NE ->. rewrite NE. destruct (Nat.eqb_spec l loc) as [->|N]; cbn [andb].
    - destruct (Z.ltb_spec (snd o) (fst st)); cbn [fst]; split; intros; lia.
    - split; [lia|congruence].
  Qed.
  Lemma lookup_step_le (o : nat * Z) (st : Z * nat) l : is_exact_mode (side_mode Q b) = false -> 
    fst (lookup_step P Q b loc o st l) <= fst st /\ (l = loc -> fst (lookup_step P Q b loc o st l) <= snd o) /\
    (side_use_footpaths Q b = true -> forall d1, In (loc, d1) (side_footpaths P b l) -> p_adjust P d1 < 511 ->
       fst (lookup_step P Q b loc o st l) <= snd o + p_adjust P d1).
  Proof.
    intros NE. unfold lookup_step. cbv zeta. set (st1 := if _ && _ then _ else st).
    destruct (step1_le o st l st1 NE eq_refl) as (A & B).
    destruct (side_use_footpaths Q b) eqn:U; cbn [negb].
    - destruct (best_footpath_gen (side_footpaths P b l) loc fp_max_duration) as (_ & _ & C).
      unfold best_footpath. cbv zeta in *. set (eff := fold_left _ _ _) in *.
      destruct (Z.leb_spec fp_max_duration eff) as [GE|LT].
      + split; [exact A|]. split; [exact B|]. intros _ d1 H1 H2. specialize (C _ H1). unfold fp_max_duration in GE. lia.
      + destruct (Z.ltb_spec (snd o + eff) (fst st1)); cbn [fst].
        * split; [lia|]. split; [intros; specialize (B ltac:(auto)); lia|]. intros _ d1 H1 H2. specialize (C _ H1). lia.
        * split; [lia|]. split; [exact B|]. intros _ d1 H1 H2. specialize (C _ H1). lia.
    - split; [exact A|]. split; [exact B|]. discriminate.
  Qed.

  Lemma access_nonneg_part d0 o : In (o, d0) (side_offsets Q b) -> 0 <= d0.
  Proof. intros H. destruct OK as (A & _). eapply A. exact H. Qed.

  Lemma lookup_best_min_nonexact o d : is_intermodal_mode (side_mode Q b) = false -> is_exact_mode (side_mode Q b) = false ->
    access b loc o d -> d < 511 -> fst (lookup_best P L Q b loc) <= d.
  Proof.
    intros NI NE HA Hd. unfold lookup_best.
    set (inner := fun st (x : nat * Z) => fold_left (lookup_step P Q b loc x) (Query_Model.metas L (side_mode Q b) (fst x)) st).
    assert (M0 : forall x ls st, fst (fold_left (lookup_step P Q b loc x) ls st) <= fst st).
    { intros x ls. induction ls as [|l ls IH]; intros st; cbn [fold_left]; [lia|]. specialize (IH (lookup_step P Q b loc x st l)).
      destruct (lookup_step_le x st l NE) as (A & _). lia. }
    assert (M1 : forall os st, fst (fold_left inner os st) <= fst st).
    { induction os as [|x os IH]; intros st; cbn [fold_left]; [lia|]. specialize (IH (inner st x)). specialize (M0 x (Query_Model.metas L (side_mode Q b) (fst x)) st).
      fold (inner st x) in M0. lia. }
    assert (K : exists x l, In x (side_offsets Q b) /\ In l (Query_Model.metas L (side_mode Q b) (fst x)) /\
       forall st, fst (lookup_step P Q b loc x st l) <= d).
    { unfold mode_of, side_mode in *. inversion HA as [d' Hm|o' d0 H1 H2 H3 H4|o' d0 H1 H2 H3|o' d0 l d1 H1 H2 H3 H4 H5]; subst.
      - exfalso. unfold mode_of in Hm. rewrite Hm in NI. discriminate.
      - exists (o, d), loc. repeat split; auto. intros st. apply (lookup_step_le (o, d) st loc); auto.
      - exfalso. unfold mode_of in H2. rewrite H2 in NE. discriminate.
      - exists (o, d0), l. repeat split; auto. intros st.
        destruct (lookup_step_le (o, d0) st l) as (_ & _ & C); [exact NE|]. apply C; auto.
        + unfold side_use_footpaths. destruct b; auto.
        + pose proof (access_nonneg_part d0 o H2). lia. }
    destruct K as (x & l & Hx & Hl & K).
    apply in_split in Hx. destruct Hx as (o1 & o2 & E). rewrite E, fold_left_app. cbn [fold_left].
    specialize (M1 o2 (inner (fold_left inner o1 (fp_max_duration, 0%nat)) x)).
    assert (N : fst (inner (fold_left inner o1 (fp_max_duration, 0%nat)) x) <= d); [|lia].
    unfold inner at 1. apply in_split in Hl. destruct Hl as (l1 & l2 & El). rewrite El, fold_left_app. cbn [fold_left].
    eapply Z.le_trans; [apply M0|]. apply K.
  Qed.

  Lemma lookup_best_min_exact o d : side_mode Q b = Query_Model.kExact ->
    (forall x, 0 <= x -> 0 <= p_adjust P x) -> (forall l, 0 <= tt_transfer_time tt l) -> (forall l l' x, In (l', x) (side_footpaths P b l) -> 0 <= x) ->
    access b loc o d -> d < 511 -> fst (lookup_best P L Q b loc) <= d.
  Proof.
    intros E Hadj Htr Hfp HA Hd. destruct OK as (N0 & N1).
    assert (Em : mode_of Q b = Query_Model.kExact) by exact E.
    rewrite Em in N1.
    assert (S : exists o d0, side_offsets Q b = [(o, d0)]).
    { change (offsets_of Q b) with (side_offsets Q b) in N1.
      inversion HA as [d' Hm Hi|o' d0 H1 Hi|o' d0 Hi|o' d0 l d1 H1 Hi]; subst; try congruence;
        change (offsets_of Q b) with (side_offsets Q b) in Hi;
        (destruct (side_offsets Q b) as [|[p q] [|]]; [destruct Hi|eauto|cbn in N1; lia]). }
    destruct S as (p & q & S). unfold lookup_best. rewrite S. cbn [fold_left]. rewrite E. cbn [Query_Model.metas fst fold_left].
    assert (Q0 : 0 <= q) by (apply (N0 p); unfold offsets_of; unfold side_offsets in S; rewrite S; now left).
    unfold lookup_step. rewrite E. cbn [is_exact_mode fst snd].
    destruct (best_footpath_gen (side_footpaths P b p) loc fp_max_duration) as (_ & _ & C).
    unfold best_footpath. cbv zeta in *. set (eff := fold_left _ (side_footpaths P b p) _) in *.
    inversion HA as [d' Hm Hi|o' d0 H1 Hi H3 H4|o' d0 Hi H2 H3|o' d0 l d1 H1 Hi H3 H4 H5]; subst; try congruence;
      change (offsets_of Q b) with (side_offsets Q b) in Hi; rewrite S in Hi; destruct Hi as [[= -> ->]|[]].
    - pose proof (Hadj _ (Htr o)) as T0. unfold transfer_time in *. rewrite Nat.eqb_refl. cbn [andb].
      destruct (Z.ltb_spec d0 fp_max_duration) as [|X]; [|unfold fp_max_duration in X; lia].
      destruct (negb _); cbn [fst]; [lia|]. destruct (fp_max_duration <=? eff); cbn [fst]; [lia|].
      destruct (Z.ltb_spec (d0 + eff) (d0 + p_adjust P (tt_transfer_time tt o))); cbn [fst]; lia.
    - rewrite Em in H3. destruct H3 as [<-|[]].
      assert (U : side_use_footpaths Q b = true) by (unfold side_use_footpaths; destruct b; auto). rewrite U. cbn [negb].
      specialize (C _ H5). destruct (Z.leb_spec fp_max_duration eff) as [GE|LT].
      + exfalso. pose proof (Hadj d1 (Hfp _ _ _ H5)). unfold fp_max_duration in GE. lia.
      + set (st1 := if _ && _ then _ else _). destruct (Z.ltb_spec (d0 + eff) (fst st1)); cbn [fst]; lia.
  Qed.

  Lemma find_sorted_min (l : list (nat * Z)) d : StronglySorted (fun x y : nat * Z => snd x <= snd y) l -> In (loc, d) l ->
    exists o, find (fun o : nat * Z => Nat.eqb (fst o) loc) l = Some o /\ snd o <= d.
  Proof.
    induction 1 as [|x l HS IH F]; [intros []|]. intros [->|Hin]; cbn [find fst].
    - rewrite Nat.eqb_refl. eexists. split; [reflexivity|]. cbn. lia.
    - destruct (Nat.eqb (fst x) loc); [|auto]. exists x. split; [reflexivity|]. rewrite Forall_forall in F. apply (F _ Hin).
  Qed.

  Hypothesis Hadj : forall x, 0 <= x -> 0 <= p_adjust P x.
  Hypothesis Htr : forall l, 0 <= tt_transfer_time tt l.
  Hypothesis Hfp : forall l l' x, In (l', x) (side_footpaths P b l) -> 0 <= x.

  Lemma access_nonneg o d : access b loc o d -> 0 <= d.
  Proof.
    intros HA. destruct OK as (N0 & _).
    inversion HA as [d' Hm Hi|o' d0 H1 Hi|o' d0 Hi|o' d0 l d1 H1 Hi H3 H4 H5]; subst.
    - eapply N0; eauto.
    - eapply N0; eauto.
    - pose proof (N0 _ _ Hi). pose proof (Hadj _ (Htr o)). unfold transfer_time. lia.
    - pose proof (N0 _ _ Hi). pose proof (Hadj _ (Hfp _ _ _ H5)). lia.
  Qed.

  (** The walk used is the shortest one. *)
  Lemma lookup_access_min o d t : access b loc o d -> usable Q b d ->
    exists g d', lookup_access P L Q b loc t = Some g /\ inner_time b g = t /\ outer_time b g = (if b then t - d' else t + d') /\ 0 <= d' <= d.
  Proof.
    intros HA HU.
    assert (K : exists g, lookup_access P L Q b loc t = Some g).
    { unfold lookup_access. destruct (is_intermodal_mode (side_mode Q b)) eqn:NI.
      - destruct OK as (_ & N1).
        assert (Em : mode_of Q b = Query_Model.kIntermodal) by (exact (inter_mode _ NI)).
        inversion HA as [d' Hm Hi|o' d0 H1 Hi|o' d0 Hi H2|o' d0 l d1 H1 Hi H3 H4 H5]; subst; try congruence.
        rewrite Em in N1. destruct (find_sorted_min _ _ N1 Hi) as (x & Hx & _). unfold lookup_offset. change (side_offsets Q b) with (offsets_of Q b). rewrite Hx. eauto.
      - destruct HU as [HU|HU]; [unfold mode_of in HU; unfold side_mode in NI; rewrite HU in NI; discriminate|].
        assert (LE : fst (lookup_best P L Q b loc) <= d).
        { destruct (is_exact_mode (side_mode Q b)) eqn:NE.
          - eapply lookup_best_min_exact; eauto. destruct (side_mode Q b); try discriminate; reflexivity.
          - eapply lookup_best_min_nonexact; eauto. }
        unfold lookup_footpath. destruct (lookup_best P L Q b loc) as [best src]. cbn in LE.
        destruct (Z.leb_spec fp_max_duration best) as [GE|]; [unfold fp_max_duration in GE; lia|]. eauto. }
    destruct K as (g & Hg). destruct (lookup_access_sound _ _ Hg) as (o' & d' & A1 & A2 & A3 & A4 & A5 & _ & _ & A6).
    exists g, d'. split; [exact Hg|]. split; [exact A4|]. split; [exact A5|]. split; [eapply access_nonneg; eauto|].
    destruct (is_intermodal_mode (side_mode Q b)) eqn:NI.
    - destruct OK as (_ & N1).
      assert (Em : mode_of Q b = Query_Model.kIntermodal) by (exact (inter_mode _ NI)).
      inversion HA as [d'' Hm Hi|o'' d0 H1 Hi|o'' d0 Hi H2|o'' d0 l d1 H1 Hi H3 H4 H5]; subst o; try congruence.
      subst d''. rewrite Em in N1. destruct (find_sorted_min _ _ N1 Hi) as (x & Hx & Hle). change (side_offsets Q b) with (offsets_of Q b) in A6. rewrite Hx in A6. lia.
    - destruct HU as [HU|HU]; [unfold mode_of in HU; unfold side_mode in NI; rewrite HU in NI; discriminate|].
      subst d'. destruct (is_exact_mode (side_mode Q b)) eqn:NE.
      + eapply lookup_best_min_exact; eauto. destruct (side_mode Q b); try discriminate; reflexivity.
      + eapply lookup_best_min_nonexact; eauto.
  Qed.

End Access.
