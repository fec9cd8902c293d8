(** Proofs about the resolution of stay-seated transfers, part 2: the transports built from one component. *)
From Coq Require Import List ZArith Bool Arith Sorted Permutation Lia.
From Verif Require Import Base Calendar_Model Block_Model Seated_Model Seated_Spec Seated_Proofs.
Import ListNotations.
Local Open Scope Z_scope.

Lemma suffix_eq {A} (a b c d : list A) : a ++ c = b ++ d -> length c = length d -> a = b /\ c = d.
Proof.
  intros H L. assert (La : length a = length b) by (apply (f_equal (@length A)) in H; rewrite !app_length in H; lia).
  revert b H La. induction a as [|x a IH]; intros [|y b] H La; cbn in *; try discriminate; [auto|].
  injection H as -> H. destruct (IH b H) as (-> & ->); [lia|]. auto.
Qed.
Lemma NoDup_join {A} (l m : list A) : NoDup l -> NoDup m -> (forall x, In x l -> ~ In x m) -> NoDup (l ++ m).
Proof.
  intros Hl Hm H. induction Hl as [|x l N Hl IH]; cbn; [exact Hm|]. constructor.
  - intros X. apply in_app_or in X. destruct X as [X|X]; [contradiction|]. exact (H x (or_introl eq_refl) X).
  - apply IH. intros y Hy. apply H. now right.
Qed.

Section Dfs.
  Variable E : expanded_seated.
  Hypothesis Hok : input_ok E.
  Variable comp : list (nat * Z).
  Variable days : bitfield.
  Notation rule x := (es_rule E (fst x)).
  Notation chain := (list (nat * Z)).

  Definition succ (x : nat * Z) : list (nat * Z) :=
    flat_map (fun t => match get_representative E comp t with Some r => [r] | None => [] end) (es_out E (rule x)).
  Lemma rep_spec t r : get_representative E comp t = Some r -> In r comp /\ rule r = t.
  Proof. intros H. apply find_some in H. destruct H as (A & B). apply Nat.eqb_eq in B. auto. Qed.
  Lemma rep_none t x : get_representative E comp t = None -> In x comp -> rule x <> t.
  Proof. intros H Hx Hr. apply (find_none _ _ H) in Hx. rewrite Hr, Nat.eqb_refl in Hx. discriminate. Qed.
  Lemma succ_spec x r : In r (succ x) <-> In (rule r) (es_out E (rule x)) /\ get_representative E comp (rule r) = Some r.
  Proof.
    unfold succ. rewrite in_flat_map. split.
    - intros (t & Ht & H). destruct (get_representative E comp t) as [r'|] eqn:R; [|destruct H]. destruct H as [<-|[]].
      destruct (rep_spec _ _ R) as (_ & ->). auto.
    - intros (Ht & R). exists (rule r). split; [exact Ht|]. rewrite R. left. reflexivity.
  Qed.
  Lemma succ_NoDup x : NoDup (succ x).
  Proof.
    unfold succ. pose proof (ok_nodup E Hok (rule x)) as H. induction H as [|t l N H IH]; cbn; [constructor|].
    destruct (get_representative E comp t) as [r|] eqn:R; [|exact IH]. cbn. constructor; [|exact IH].
    intros X. apply in_flat_map in X. destruct X as (t' & Ht' & X). destruct (get_representative E comp t') as [r'|] eqn:R'; [|destruct X]. destruct X as [<-|[]].
    destruct (rep_spec _ _ R) as (_ & R1). destruct (rep_spec _ _ R') as (_ & R2). congruence.
  Qed.

  (** The queue entry of a chain of component members (last one first). *)
  Fixpoint conc (c : chain) : entry :=
    match c with
    | [] => (no_trip, 0%nat, 0)
    | x :: c' =>
        match c' with
        | [] => start_entry E days x
        | _ => let '(curr, _, off) := conc c' in (append_trip E curr off x, rule x, off)
        end
    end.
  Lemma nexts_conc x c : nexts E comp (conc (x :: c)) = map (fun r => conc (r :: x :: c)) (succ x).
  Proof.
    assert (U : forall r y d, conc (r :: y :: d) = let '(curr, _, off) := conc (y :: d) in (append_trip E curr off r, rule r, off)) by reflexivity.
    assert (K : exists curr off, conc (x :: c) = (curr, rule x, off)).
    { destruct c as [|y d]; [unfold conc, start_entry; eauto|]. rewrite U. destruct (conc (y :: d)) as ((a, b), o). eauto. }
    destruct K as (curr & off & K).
    assert (R : forall r, conc (r :: x :: c) = (append_trip E curr off r, rule r, off)).
    { intros r. now rewrite U, K. }
    rewrite K. unfold nexts, succ. induction (es_out E (rule x)) as [|t l IH]; [reflexivity|]. cbn [flat_map]. rewrite map_app, IH. f_equal.
    destruct (get_representative E comp t) as [r|]; [|reflexivity]. cbn [map]. now rewrite R.
  Qed.

  (** The depth-first search over chains. *)
  Fixpoint gd (fuel : nat) (stack : list chain) : option (list chain) :=
    match fuel with
    | O => None
    | S fuel' =>
        match stack with
        | [] => Some []
        | c :: st =>
            match map (fun r => r :: c) (match c with [] => [] | x :: _ => succ x end) with
            | [] => option_map (cons c) (gd fuel' st)
            | l => gd fuel' (rev l ++ st)
            end
        end
    end.
  Definition transport_of (c : chain) : utc_trip := fst (fst (conc c)).
  Lemma dfs_gd : forall fuel st, (forall c, In c st -> c <> []) -> dfs E fuel comp (map conc st) = option_map (map transport_of) (gd fuel st).
  Proof.
    induction fuel as [|fuel IH]; intros st H; [reflexivity|]. destruct st as [|c st]; [reflexivity|]. cbn [map dfs gd].
    destruct c as [|x c]; [destruct (H [] (or_introl eq_refl) eq_refl)|]. rewrite nexts_conc.
    assert (Hst : forall d, In d st -> d <> []) by (intros d Hd; apply H; now right).
    destruct (succ x) as [|r l] eqn:Es; cbn [map].
    - rewrite (IH st Hst). destruct (gd fuel st); reflexivity.
    - set (l0 := map (fun r => r :: x :: c) l).
      replace (rev (conc (r :: x :: c) :: map (fun r0 => conc (r0 :: x :: c)) l) ++ map conc st) with (map conc (rev ((r :: x :: c) :: l0) ++ st)).
      + apply IH. intros d Hd. apply in_app_or in Hd. destruct Hd as [Hd|Hd]; [|auto]. apply in_rev in Hd. destruct Hd as [<-|Hd]; [discriminate|].
        apply in_map_iff in Hd. destruct Hd as (z & <- & _). discriminate.
      + rewrite map_app. f_equal. rewrite map_rev. f_equal. cbn [map]. f_equal. unfold l0. rewrite map_map. reflexivity.
  Qed.

  Lemma gd_more : forall fuel m st a, gd fuel st = Some a -> gd (fuel + m) st = Some a.
  Proof.
    induction fuel as [|fuel IH]; intros m st a H; [discriminate|]. cbn [gd Nat.add] in *. destruct st as [|c st]; [exact H|].
    destruct (map (fun r => r :: c) (match c with [] => [] | x :: _ => succ x end)) as [|y l].
    - destruct (gd fuel st) as [b|] eqn:G; [|discriminate]. rewrite (IH m _ _ G). exact H.
    - apply IH, H.
  Qed.
  Lemma gd_det f f' st a b : gd f st = Some a -> gd f' st = Some b -> a = b.
  Proof. intros H1 H2. apply (gd_more f f') in H1. apply (gd_more f' f) in H2. rewrite Nat.add_comm in H2. congruence. Qed.

  (** Chains that follow the rules inside the component. *)
  Inductive walk : chain -> Prop :=
  | walk_one e : In e comp -> is_entry E comp (fst e) = true -> walk [e]
  | walk_more r x c : walk (x :: c) -> In r (succ x) -> walk (r :: x :: c).
  Lemma walk_In c x : walk c -> In x c -> In x comp.
  Proof.
    intros H. induction H as [e He _|r y c H IH Hr]; intros [<-|Hx]; try (destruct Hx; fail); auto.
    apply succ_spec in Hr. destruct Hr as (_ & Hr). apply rep_spec in Hr. apply Hr.
  Qed.
  Lemma gd_walk : forall fuel st outs, (forall c, In c st -> walk c) -> gd fuel st = Some outs -> forall c, In c outs -> walk c.
  Proof.
    induction fuel as [|fuel IH]; intros st outs H G; [discriminate|]. destruct st as [|c st]; cbn [gd] in G; [injection G as <-; intros c []|].
    assert (Hst : forall d, In d st -> walk d) by (intros d Hd; apply H; now right).
    destruct c as [|x c]; cbn [map] in G.
    - pose proof (H [] (or_introl eq_refl)) as W. inversion W.
    - destruct (map (fun r => r :: x :: c) (succ x)) as [|y l] eqn:M.
      + destruct (gd fuel st) as [b|] eqn:Gb; [|discriminate]. injection G as <-. intros d [<-|Hd]; [apply H; now left|]. exact (IH _ _ Hst Gb d Hd).
      + refine (IH _ _ _ G). intros d Hd. apply in_app_or in Hd. destruct Hd as [Hd|Hd]; [|auto]. apply in_rev in Hd. rewrite <- M in Hd.
        apply in_map_iff in Hd. destruct Hd as (r & <- & Hr). apply walk_more; [apply H; now left|exact Hr].
  Qed.

  (** Complete continuations of a chain. *)
  Inductive ends : chain -> chain -> Prop :=
  | ends_stop x c : succ x = [] -> ends (x :: c) (x :: c)
  | ends_more x c r c' : In r (succ x) -> ends (r :: x :: c) c' -> ends (x :: c) c'.
  Lemma ends_suffix c c' : ends c c' -> exists l, c' = l ++ c.
  Proof.
    intros H. induction H as [x c _|x c r c' _ _ (l & ->)]; [exists []; reflexivity|]. exists (l ++ [r]). rewrite <- app_assoc. reflexivity.
  Qed.
  Lemma walk_ends c : walk c -> exists e, In e comp /\ is_entry E comp (fst e) = true /\ forall c', ends c c' -> ends [e] c'.
  Proof.
    intros H. induction H as [e He Hi|r x c H (e & A & B & C) Hr]; [exists e; auto|]. exists e. split; [exact A|]. split; [exact B|].
    intros c' Hc. apply C. exact (ends_more x c r c' Hr Hc).
  Qed.

  Section Acyclic.
    Variable rank : nat -> nat.
    Hypothesis Hrank : forall a b, In b (es_out E a) -> (rank a < rank b)%nat.
    Definition top : nat := list_max (map (fun x => rank (rule x)) comp).
    Lemma rank_top x : In x comp -> (rank (rule x) <= top)%nat.
    Proof.
      intros H. unfold top. pose proof (list_max_le (map (fun x => rank (rule x)) comp) (list_max (map (fun x => rank (rule x)) comp))) as (K & _).
      specialize (K (le_n _)). rewrite Forall_forall in K. apply K. apply in_map_iff. exists x. auto.
    Qed.
    Lemma succ_rank x r : In r (succ x) -> (rank (rule x) < rank (rule r))%nat /\ In r comp.
    Proof. intros H. apply succ_spec in H. destruct H as (A & B). apply rep_spec in B. split; [apply Hrank, A|apply B]. Qed.

    Definition explored (cs : list chain) (f : nat) (outs : list chain) : Prop :=
      (forall fuel st, gd (f + fuel) (cs ++ st) = option_map (app outs) (gd fuel st)) /\
      (forall c', In c' outs <-> exists c, In c cs /\ ends c c').
    Lemma explored_app cs f outs cs' f' outs' : explored cs f outs -> explored cs' f' outs' -> explored (cs ++ cs') (f + f') (outs ++ outs').
    Proof.
      intros (A & B) (A' & B'). split.
      - intros fuel st. rewrite <- app_assoc, <- Nat.add_assoc, A, A'. destruct (gd fuel st) as [b|]; cbn; [now rewrite app_assoc|reflexivity].
      - intros c'. rewrite in_app_iff, B, B'. split.
        + intros [(c & H1 & H2)|(c & H1 & H2)]; exists c; (split; [apply in_or_app; auto|exact H2]).
        + intros (c & H1 & H2). apply in_app_or in H1. destruct H1; [left|right]; exists c; auto.
    Qed.
    Lemma explored_list len cs : NoDup cs -> (forall c, In c cs -> length c = len /\ exists f outs, explored [c] f outs /\ NoDup outs) ->
      exists f outs, explored cs f outs /\ NoDup outs.
    Proof.
      intros N. induction N as [|c cs Nc N IH]; intros H.
      - exists 0%nat, []. split; [|constructor]. split; [intros fuel st; cbn; destruct (gd fuel st); reflexivity|].
        intros c'. split; [intros []|intros (c & [] & _)].
      - destruct IH as (f & outs & HE & HN); [intros d Hd; apply H; now right|]. destruct (H c (or_introl eq_refl)) as (Hl & f1 & o1 & HE1 & HN1).
        exists (f1 + f)%nat, (o1 ++ outs). split; [exact (explored_app [c] _ _ _ _ _ HE1 HE)|]. apply NoDup_join; [exact HN1|exact HN|].
        intros c' H1 H2. apply (proj2 HE1) in H1. apply (proj2 HE) in H2. destruct H1 as (a & [<-|[]] & Ha). destruct H2 as (b & Hb & Hb').
        apply ends_suffix in Ha. apply ends_suffix in Hb'. destruct Ha as (la & ->). destruct Hb' as (lb & Eq). destruct (H b (or_intror Hb)) as (Hl' & _).
        apply suffix_eq in Eq; [|congruence]. destruct Eq as (_ & <-). contradiction.
    Qed.
    Lemma explore : forall k x c, (top - rank (rule x) < k)%nat -> In x comp -> exists f outs, explored [x :: c] f outs /\ NoDup outs.
    Proof.
      induction k as [|k IH]; intros x c Hk Hx; [lia|].
      destruct (succ x) as [|r0 l0] eqn:Es.
      - exists 1%nat, [x :: c]. split; [|repeat constructor; intros []]. split.
        + intros fuel st. cbn [app Nat.add gd]. rewrite Es. cbn [map]. destruct (gd fuel st); reflexivity.
        + intros c'. split.
          * intros [<-|[]]. exists (x :: c). split; [left; reflexivity|]. now apply ends_stop.
          * intros (c0 & [<-|[]] & H). inversion H as [x0 c0 H0|x0 c0 r c1 Hr H0]; subst; [left; reflexivity|]. rewrite Es in Hr. destruct Hr.
      - assert (Ne : succ x <> []) by (rewrite Es; discriminate). clear Es r0 l0. set (cs := rev (map (fun r => r :: x :: c) (succ x))).
        assert (Nc : NoDup cs).
        { unfold cs. apply NoDup_rev. assert (K : forall l, NoDup l -> NoDup (map (fun r : nat * Z => r :: x :: c) l)); [|apply K, succ_NoDup].
          intros l Hl. induction Hl as [|a l Na Hl IHl]; cbn; constructor; auto. intros X. apply in_map_iff in X. destruct X as (b & [= ->] & Hb). contradiction. }
        assert (Hcs : forall d, In d cs <-> exists r, In r (succ x) /\ d = r :: x :: c).
        { intros d. unfold cs. rewrite <- in_rev, in_map_iff. split; intros (r & H1 & H2); exists r; auto. }
        destruct (explored_list (S (S (length c))) cs Nc) as (f & outs & HE & HN).
        { intros d Hd. apply Hcs in Hd. destruct Hd as (r & Hr & ->). split; [reflexivity|]. destruct (succ_rank _ _ Hr) as (R1 & R2).
          apply IH; [|exact R2]. pose proof (rank_top r R2). lia. }
        exists (S f), outs. split; [|exact HN]. split.
        + intros fuel st. rewrite <- (proj1 HE). cbn [app Nat.add gd].
          destruct (map (fun r => r :: x :: c) (succ x)) as [|y l] eqn:M; [apply map_eq_nil in M; congruence|]. reflexivity.
        + intros c'. rewrite (proj2 HE). split.
          * intros (d & Hd & H). apply Hcs in Hd. destruct Hd as (r & Hr & ->). exists (x :: c). split; [left; reflexivity|]. exact (ends_more x c r c' Hr H).
          * intros (d & [<-|[]] & H). inversion H as [x0 c0 H0|x0 c0 r c1 Hr H0]; subst; [congruence|]. exists (r :: x :: c). split; [apply Hcs; eauto|exact H0].
    Qed.

    Hypothesis Hnodup : NoDup (map fst comp).
    Definition entries : list (nat * Z) := filter (fun x => is_entry E comp (fst x)) comp.
    (** The depth-first search ends and yields every complete chain exactly once. *)
    Lemma explore_all : exists f outs, (forall fuel, gd (f + S fuel) (rev (map (fun e => [e]) entries)) = Some outs) /\ NoDup outs /\
      forall c', In c' outs <-> exists e, In e comp /\ is_entry E comp (fst e) = true /\ ends [e] c'.
    Proof.
      set (cs := rev (map (fun e : nat * Z => [e]) entries)).
      assert (Nc : NoDup cs).
      { unfold cs. apply NoDup_rev. assert (K : forall l : list (nat * Z), NoDup l -> NoDup (map (fun e => [e]) l)).
        { intros l Hl. induction Hl as [|a l Na Hl IHl]; cbn; constructor; auto. intros X. apply in_map_iff in X. destruct X as (b & [= ->] & Hb). contradiction. }
        apply K. unfold entries. apply NoDup_filter. exact (NoDup_map_inv _ _ Hnodup). }
      assert (Hcs : forall d, In d cs <-> exists e, In e comp /\ is_entry E comp (fst e) = true /\ d = [e]).
      { intros d. unfold cs. rewrite <- in_rev, in_map_iff. unfold entries. split.
        - intros (e & <- & He). apply filter_In in He. exists e. split; [apply He|]. split; [apply He|reflexivity].
        - intros (e & H1 & H2 & ->). exists e. split; [reflexivity|]. apply filter_In. auto. }
      destruct (explored_list 1 cs Nc) as (f & outs & HE & HN).
      { intros d Hd. apply Hcs in Hd. destruct Hd as (e & He & _ & ->). split; [reflexivity|]. apply (explore (S (top - rank (rule e)))); [lia|exact He]. }
      exists f, outs. split; [|split; [exact HN|]].
      - intros fuel. pose proof (proj1 HE (S fuel) []) as K. rewrite app_nil_r in K. rewrite K. cbn. now rewrite app_nil_r.
      - intros c'. rewrite (proj2 HE). split.
        + intros (d & Hd & H). apply Hcs in Hd. destruct Hd as (e & A & B & ->). eauto.
        + intros (e & A & B & H). exists [e]. split; [apply Hcs; eauto|exact H].
    Qed.
    Lemma ends_exists x c : In x comp -> exists c', ends (x :: c) c'.
    Proof.
      intros Hx. assert (K : forall k x c, (top - rank (rule x) < k)%nat -> In x comp -> exists c', ends (x :: c) c'); [|exact (K _ x c (le_n _) Hx)].
      clear x c Hx. induction k as [|k IH]; intros x c Hk Hx; [lia|]. destruct (succ x) as [|r l] eqn:Es.
      - exists (x :: c). now apply ends_stop.
      - assert (Hr : In r (succ x)) by (rewrite Es; left; reflexivity). destruct (succ_rank _ _ Hr) as (R1 & R2). pose proof (rank_top r R2).
        destruct (IH r (x :: c)) as (c' & H'); [lia|exact R2|]. exists c'. exact (ends_more x c r c' Hr H').
    Qed.

    (** If no rule trip has two variants in the component, every member is on a chain. *)
    Hypothesis Hunique : forall x y, In x comp -> In y comp -> rule x = rule y -> x = y.
    Lemma rep_self x : In x comp -> get_representative E comp (rule x) = Some x.
    Proof.
      intros H. destruct (get_representative E comp (rule x)) as [r|] eqn:R.
      - apply rep_spec in R. destruct R as (A & B). now rewrite (Hunique r x A H B).
      - destruct (rep_none _ _ R H eq_refl).
    Qed.
    Lemma walk_to : forall k x, (rank (rule x) < k)%nat -> In x comp -> exists c, walk (x :: c).
    Proof.
      induction k as [|k IH]; intros x Hk Hx; [lia|]. destruct (is_entry E comp (fst x)) eqn:Ei; [exists []; now constructor|].
      unfold is_entry in Ei. assert (X : exists t, In t (incoming E (fst x)) /\ get_representative E comp t <> None).
      { clear - Ei. induction (incoming E (fst x)) as [|t l IH]; cbn in Ei; [discriminate|]. destruct (get_representative E comp t) eqn:R; [exists t; split; [now left|congruence]|].
        destruct (IH Ei) as (t' & H1 & H2). exists t'. split; [now right|exact H2]. }
      destruct X as (t & Ht & R). destruct (get_representative E comp t) as [u|] eqn:Ru; [|congruence]. apply rep_spec in Ru. destruct Ru as (Hu & Eu).
      assert (O : In (rule x) (es_out E (rule u))) by (rewrite Eu; apply (ok_rules E Hok); exact Ht).
      destruct (IH u) as (c & W); [specialize (Hrank _ _ O); lia|exact Hu|].
      exists (u :: c). apply walk_more; [exact W|]. apply succ_spec. split; [exact O|apply rep_self, Hx].
    Qed.
    Lemma member_on_chain x : In x comp -> exists e l c, In e comp /\ is_entry E comp (fst e) = true /\ ends [e] (l ++ x :: c).
    Proof.
      intros Hx. destruct (walk_to _ x (le_n _) Hx) as (c & W). destruct (walk_ends _ W) as (e & A & B & C).
      destruct (ends_exists x c Hx) as (c' & H). destruct (ends_suffix _ _ H) as (l & ->). exists e, l, c. auto.
    Qed.
    Lemma link_on_chain u v : In u comp -> In v comp -> In (rule v) (es_out E (rule u)) ->
      exists e l c, In e comp /\ is_entry E comp (fst e) = true /\ ends [e] (l ++ v :: u :: c).
    Proof.
      intros Hu Hv O. destruct (walk_to _ u (le_n _) Hu) as (c & W).
      assert (W2 : walk (v :: u :: c)) by (apply walk_more; [exact W|]; apply succ_spec; split; [exact O|apply rep_self, Hv]).
      destruct (walk_ends _ W2) as (e & A & B & C). destruct (ends_exists v (u :: c) Hv) as (c' & H). destruct (ends_suffix _ _ H) as (l & ->). exists e, l, c. auto.
    Qed.
  End Acyclic.

  (** The parts of the transport of a chain. *)
  Definition parts_of (c : chain) : list (nat * Z) := map (fun x => (fst x, snd x - snd (last c (0%nat, 0)))) (rev c).
End Dfs.
