From Coq Require Import List Arith Bool Lia Permutation.
From Verif Require Import Base Dial_Model Dial_Proofs.
Import ListNotations.

Section Store.
  Context {str : Type} (eqb : str -> str -> bool) (hash : str -> nat).
  Hypothesis eqb_ok : forall a b, eqb a b = true <-> a = b.

  Notation slot := (slot_of str hash).
  (** Every entry of the table is in the chain of the string it refers to. *)
  Definition slots_sound (strings : list str) (slots : list (list nat)) : Prop :=
    forall k i, In i (nth k slots []) -> exists s, nth_error strings i = Some s /\ k = slot (length slots) s.
  Definition slots_complete (m : nat) (strings : list str) (slots : list (list nat)) : Prop :=
    forall i s, i < m -> nth_error strings i = Some s -> In i (nth (slot (length slots) s) slots []).
  Definition sinv (st : store str) : Prop :=
    0 < length (st_slots st) /\ NoDup (st_strings st) /\
    slots_sound (st_strings st) (st_slots st) /\
    slots_complete (length (st_strings st)) (st_strings st) (st_slots st).

  Lemma nth_repeat_nil {A} n k : nth k (repeat (@nil A) n) [] = [].
  Proof.
    destruct (Nat.lt_ge_cases k n).
    - now apply nth_repeat.
    - apply nth_overflow. now rewrite repeat_length.
  Qed.

  Lemma sinv_empty n : 0 < n -> sinv (store_empty str n).
  Proof.
    intros H. unfold sinv, store_empty; simpl. rewrite repeat_length. repeat split; auto.
    - constructor.
    - intros k i Hi. now rewrite nth_repeat_nil in Hi.
    - intros i s Hi. lia.
  Qed.

  Lemma find_spec st s : sinv st ->
    match store_find str eqb hash st s with
    | Some i => nth_error (st_strings st) i = Some s
    | None => ~ In s (st_strings st)
    end.
  Proof.
    intros (Hn & Hd & Hs & Hc). unfold store_find.
    destruct (find _ _) as [i|] eqn:E.
    - apply find_some in E. destruct E as (_ & E). unfold entry_eq in E.
      destruct (nth_error (st_strings st) i) as [x|]; [|discriminate].
      apply eqb_ok in E. now subst.
    - intros Hin. apply In_nth_error in Hin. destruct Hin as (i & Hi).
      assert (Hl : i < length (st_strings st)) by (apply nth_error_Some; congruence).
      specialize (Hc i s Hl Hi).
      apply (find_none _ _ E) in Hc. unfold entry_eq in Hc. rewrite Hi in Hc.
      assert (eqb s s = true) by now apply eqb_ok. congruence.
  Qed.

  Lemma nodup_index (l : list str) i j s : NoDup l -> nth_error l i = Some s -> nth_error l j = Some s -> i = j.
  Proof.
    intros Hd Hi Hj. apply (proj1 (NoDup_nth_error l) Hd).
    - apply nth_error_Some; congruence.
    - congruence.
  Qed.

  Lemma slot_lt n s : 0 < n -> slot n s < n.
  Proof. intros. unfold slot_of. apply Nat.mod_upper_bound. lia. Qed.

  Lemma slot_insert_length slots k i : length (slot_insert slots k i) = length slots.
  Proof. apply set_nth_length. Qed.

  Lemma insert_sound strings slots i s : nth_error strings i = Some s ->
    slots_sound strings slots -> slots_sound strings (slot_insert slots (slot (length slots) s) i).
  Proof.
    intros Hi H k j. rewrite slot_insert_length. unfold slot_insert. rewrite nth_set_nth.
    destruct (Nat.eqb_spec (slot (length slots) s) k); simpl; [|apply H].
    destruct (Nat.ltb_spec (slot (length slots) s) (length slots)); [|apply H].
    subst k. intros [<-|Hj]; eauto.
  Qed.

  Lemma insert_has slots s i : 0 < length slots ->
    In i (nth (slot (length slots) s) (slot_insert slots (slot (length slots) s) i) []).
  Proof.
    intros H. unfold slot_insert. rewrite nth_set_nth_eq by now apply slot_lt. now left.
  Qed.
  Lemma insert_keeps slots k i j k' :
    In j (nth k' slots []) -> In j (nth k' (slot_insert slots k i) []).
  Proof.
    intros H. unfold slot_insert. rewrite nth_set_nth.
    destruct (Nat.eqb_spec k k'); simpl; auto. subst.
    destruct (Nat.ltb k' (length slots)); auto. now right.
  Qed.

  Lemma rehash_spec st m n : 0 < n -> m <= length (st_strings st) ->
    slots_sound (st_strings st) (st_slots st) -> slots_complete m (st_strings st) (st_slots st) -> 0 < length (st_slots st) ->
    let st' := rehash str hash st n in
    length (st_slots st') = n /\ st_strings st' = st_strings st /\
    slots_sound (st_strings st) (st_slots st') /\ slots_complete m (st_strings st) (st_slots st').
  Proof.
    intros Hn Hm Hs Hc Hp st'. unfold st', rehash; simpl.
    set (f := fun sl i => match nth_error (st_strings st) i with
                          | Some s => slot_insert sl (slot n s) i | None => sl end).
    assert (G : forall l sl, length sl = n -> slots_sound (st_strings st) sl ->
      let r := fold_left f l sl in
      length r = n /\ slots_sound (st_strings st) r /\
      (forall k j, In j (nth k sl []) -> In j (nth k r [])) /\
      (forall i s, In i l -> nth_error (st_strings st) i = Some s -> In i (nth (slot n s) r []))).
    { induction l as [|a l IH]; intros sl Hl Hsl; simpl.
      - repeat split; auto. intros ? ? [].
      - assert (H1 : length (f sl a) = n).
        { unfold f. destruct (nth_error _ a); auto. now rewrite slot_insert_length. }
        assert (H2 : slots_sound (st_strings st) (f sl a)).
        { unfold f. destruct (nth_error _ a) eqn:E; auto. rewrite <- Hl. now apply insert_sound. }
        destruct (IH _ H1 H2) as (I1 & I2 & I3 & I4). split; [auto|split; [auto|split]].
        + intros k j Hj. apply I3. unfold f. destruct (nth_error _ a); auto. now apply insert_keeps.
        + intros i s [->|Hi] Hi'; [|now apply I4].
          apply I3. unfold f. rewrite Hi'. rewrite <- Hl. apply insert_has. lia. }
    destruct (G (concat (st_slots st)) (repeat [] n)) as (G1 & G2 & G3 & G4).
    - apply repeat_length.
    - intros k i Hi. now rewrite nth_repeat_nil in Hi.
    - repeat split; auto.
      intros i s Hi Hs'. rewrite G1. apply G4; auto.
      apply in_concat_nth. exists (slot (length (st_slots st)) s). split; [now apply slot_lt|].
      now apply Hc.
  Qed.

  Lemma store_spec grow st s : 0 < grow -> sinv st ->
    let (i, st') := store_store str eqb hash grow st s in
    sinv st' /\ nth_error (st_strings st') i = Some s /\
    ((In s (st_strings st) /\ st' = st) \/
     (~ In s (st_strings st) /\ i = length (st_strings st) /\ st_strings st' = st_strings st ++ [s])).
  Proof.
    intros Hg Hi. unfold store_store. pose proof (find_spec st s Hi) as F.
    destruct (store_find str eqb hash st s) as [i|].
    - split; auto. split; auto. left. split; auto. eapply nth_error_In; eauto.
    - destruct Hi as (Hn & Hd & Hs & Hc).
      set (st1 := mk_store (st_strings st ++ [s]) (st_slots st)).
      set (m := length (st_strings st)).
      assert (S1 : slots_sound (st_strings st1) (st_slots st1)).
      { intros k i Hi. destruct (Hs k i Hi) as (x & Hx & Hk). exists x. split; auto.
        simpl. rewrite nth_error_app1; auto. apply nth_error_Some; congruence. }
      assert (C1 : slots_complete m (st_strings st1) (st_slots st1)).
      { intros i x Hi Hx. apply (Hc i x Hi). simpl in Hx. now rewrite nth_error_app1 in Hx by auto. }
      set (st2 := if Nat.eqb grow (length (st_slots st)) then st1 else rehash str hash st1 grow).
      assert (H2 : 0 < length (st_slots st2) /\ st_strings st2 = st_strings st1 /\
                   slots_sound (st_strings st1) (st_slots st2) /\ slots_complete m (st_strings st1) (st_slots st2)).
      { unfold st2. destruct (Nat.eqb grow (length (st_slots st))); auto.
        destruct (rehash_spec st1 m grow) as (R1 & R2 & R3 & R4); auto.
        - simpl. rewrite app_length. unfold m. simpl. lia.
        - split; [lia|auto]. }
      destruct H2 as (L2 & E2 & S2 & C2).
      assert (Hnew : nth_error (st_strings st ++ [s]) m = Some s).
      { rewrite nth_error_app2 by (unfold m; lia). unfold m. now rewrite Nat.sub_diag. }
      split; [|split].
      + unfold sinv; simpl. rewrite E2. simpl. rewrite slot_insert_length. repeat split; auto.
        * apply (Permutation_NoDup (l := s :: st_strings st)).
          { rewrite Permutation_app_comm. reflexivity. }
          { constructor; auto. }
        * now apply insert_sound.
        * intros i x Hi Hx. rewrite slot_insert_length. rewrite app_length in Hi. simpl in Hi.
          destruct (Nat.eq_dec i m).
          { subst i. rewrite Hnew in Hx. injection Hx as <-. now apply insert_has. }
          { apply insert_keeps. apply C2; auto. unfold m in *. lia. }
      + simpl. rewrite E2. exact Hnew.
      + right. simpl. rewrite E2. auto.
  Qed.

  Lemma run_spec n0 h : 0 < n0 -> (forall g, In g (map fst h) -> 0 < g) ->
    sinv (store_run str eqb hash n0 h) /\
    forall s, In s (st_strings (store_run str eqb hash n0 h)) <-> In s (map snd h).
  Proof.
    intros H0. unfold store_run.
    set (step := fun st gs => snd (store_store str eqb hash (fst gs) st (snd gs))).
    induction h as [|[g s] h IH] using rev_ind; intros Hg.
    - split; [now apply sinv_empty|]. simpl. tauto.
    - destruct IH as [Hi Hin].
      { intros g' H. apply Hg. rewrite map_app, in_app_iff. now left. }
      rewrite fold_left_app. simpl.
      assert (Hgp : 0 < g) by (apply Hg; rewrite map_app, in_app_iff; right; now left).
      unfold step at 1 3. simpl.
      pose proof (store_spec g (fold_left step h (store_empty str n0)) s Hgp Hi) as H.
      destruct (store_store str eqb hash g _ s) as [i st'] eqn:E. simpl.
      destruct H as (H1 & H2 & H3). split; auto.
      intros x. rewrite map_app, in_app_iff. simpl.
      rewrite <- Hin. destruct H3 as [[H3 ->]|(H3 & H4 & ->)].
      + split; [tauto|]. intros [|[<-|[]]]; auto.
      + rewrite in_app_iff. simpl. tauto.
  Qed.

  Lemma store_prefix grow st s : 0 < grow -> sinv st ->
    exists tail, st_strings (snd (store_store str eqb hash grow st s)) = st_strings st ++ tail.
  Proof.
    intros Hg Hi. pose proof (store_spec grow st s Hg Hi) as H.
    destruct (store_store _ _ _ _ _ _) as [i st']. simpl.
    destruct H as (_ & _ & [[_ ->]|(_ & _ & ->)]); eauto. exists []. now rewrite app_nil_r.
  Qed.
End Store.
