(** C76: links between the stations of different feeds, stop groups. *)
From Coq Require Import ZArith List Bool Lia Arith.
From Verif Require Import Link_Model.
Import ListNotations.
Local Open Scope Z_scope.

(** ** Specification *)
(** [j] is a stop of another feed near the stop [i], which is not a dummy and not at the origin of the coordinates. *)
Definition Linked (g : geo) (i j : nat) : Prop :=
  (i < n_locs g)%nat /\ i <> j /\ null_island g i = false /\ In j (in_radius g i) /\
  exists a b, loc_src g i = Some a /\ loc_src g j = Some b /\ a <> b.
(** The time of the link: the walk, but at least the change times of both stops. *)
Definition LinkTime (g : geo) (i j : nat) (d : Z) : Prop :=
  walk g i j <= d /\ transfer_time g i <= d /\ transfer_time g j <= d /\
  (d = walk g i j \/ d = transfer_time g i \/ d = transfer_time g j).
(** The r-tree returns every stop at most once. *)
Definition rtree_ok (g : geo) : Prop := forall i, NoDup (in_radius g i).
(** Members of a stop group: the stop, its children and their children. *)
Definition Member (children : nat -> list nat) (l x : nat) : Prop :=
  x = l \/ In x (children l) \/ exists c, In c (children l) /\ In x (children c).
(** ** Links: the two loops as one list of pairs *)
Definition eligible (g : geo) (i j : nat) : bool :=
  negb (Nat.eqb i j) && negb (match loc_src g j with None => true | Some _ => false end || opt_nat_eqb (loc_src g i) (loc_src g j)).
Definition time_of (g : geo) (i j : nat) : Z := Z.max (Z.max (transfer_time g i) (transfer_time g j)) (walk g i j).
Definition add_link (g : geo) (st : links) (p : nat * nat) : links :=
  {| fp_out := upd (fp_out st) (fst p) (fp_out st (fst p) ++ [(snd p, time_of g (fst p) (snd p))]);
     fp_in := upd (fp_in st) (snd p) (fp_in st (snd p) ++ [(fst p, time_of g (fst p) (snd p))]);
     eqv := if close g (fst p) (snd p) then upd (eqv st) (fst p) (eqv st (fst p) ++ [snd p]) else eqv st |}.
Definition pairs_from (g : geo) (i : nat) : list (nat * nat) :=
  if null_island g i then [] else match loc_src g i with None => [] | Some _ => map (pair i) (filter (eligible g i) (in_radius g i)) end.
Definition all_pairs (g : geo) : list (nat * nat) := flat_map (pairs_from g) (seq 0 (n_locs g)).

Lemma link_to_add g i st j : link_to g i st j = if eligible g i j then add_link g st (i, j) else st.
Proof.
  unfold link_to, eligible. destruct (Nat.eqb i j); [reflexivity|]. cbn [negb andb].
  destruct (match loc_src g j with None => true | Some _ => false end || opt_nat_eqb (loc_src g i) (loc_src g j)); reflexivity.
Qed.
Lemma link_from_pairs g st i : link_from g st i = fold_left (add_link g) (pairs_from g i) st.
Proof.
  unfold link_from, pairs_from. destruct (null_island g i); [reflexivity|]. destruct (loc_src g i) as [a|] eqn:E; [|reflexivity].
  revert st. induction (in_radius g i) as [|j l IH]; intros st; [reflexivity|]. cbn [fold_left filter].
  rewrite link_to_add. destruct (eligible g i j); cbn [map fold_left]; apply IH.
Qed.
Lemma link_pairs g st : link_nearby_stations g st = fold_left (add_link g) (all_pairs g) st.
Proof.
  unfold link_nearby_stations, all_pairs. revert st. induction (seq 0 (n_locs g)) as [|i l IH]; intros st; [reflexivity|].
  cbn [fold_left flat_map]. rewrite fold_left_app, <- link_from_pairs. apply IH.
Qed.
Lemma fold_links g ps : forall st i,
  let r := fold_left (add_link g) ps st in
  fp_out r i = fp_out st i ++ map (fun p => (snd p, time_of g (fst p) (snd p))) (filter (fun p => Nat.eqb (fst p) i) ps) /\
  fp_in r i = fp_in st i ++ map (fun p => (fst p, time_of g (fst p) (snd p))) (filter (fun p => Nat.eqb (snd p) i) ps) /\
  eqv r i = eqv st i ++ map snd (filter (fun p => Nat.eqb (fst p) i && close g (fst p) (snd p)) ps).
Proof.
  induction ps as [|[a b] ps IH]; intros st i; cbn zeta; cbn [fold_left filter map fst snd].
  - now rewrite !app_nil_r.
  - destruct (IH (add_link g st (a, b)) i) as (H1 & H2 & H3). cbn zeta in *. rewrite H1, H2, H3. clear.
    unfold add_link; cbn [fp_out fp_in eqv fst snd]. unfold upd.
    split; [|split].
    + rewrite (Nat.eqb_sym a i). destruct (Nat.eqb_spec i a) as [->|]; cbn [map fst snd]; [rewrite <- app_assoc|]; reflexivity.
    + rewrite (Nat.eqb_sym b i). destruct (Nat.eqb_spec i b) as [->|]; cbn [map fst snd]; [rewrite <- app_assoc|]; reflexivity.
    + rewrite (Nat.eqb_sym a i).
      destruct (close g a b); destruct (Nat.eqb_spec i a) as [->|]; cbn [map fst snd andb]; [rewrite <- app_assoc|..]; reflexivity.
Qed.
Lemma opt_eqb_spec a b : opt_nat_eqb a b = true <-> a = b.
Proof.
  destruct a as [x|], b as [y|]; cbn; split; try discriminate; auto.
  - intros H. apply Nat.eqb_eq in H. now subst.
  - intros [= ->]. apply Nat.eqb_refl.
Qed.
Lemma all_pairs_in g i j : In (i, j) (all_pairs g) <-> Linked g i j.
Proof.
  unfold all_pairs, Linked. rewrite in_flat_map. split.
  - intros (k & Hk & Hp). apply in_seq in Hk. unfold pairs_from in Hp.
    destruct (null_island g k) eqn:En; [destruct Hp|]. destruct (loc_src g k) as [a|] eqn:Ea; [|destruct Hp].
    apply in_map_iff in Hp. destruct Hp as (j' & [= -> ->] & Hj). apply filter_In in Hj. destruct Hj as [Hj He].
    unfold eligible in He. apply andb_true_iff in He. destruct He as [He1 He2]. apply negb_true_iff in He1, He2.
    apply Nat.eqb_neq in He1. apply orb_false_iff in He2. destruct He2 as [He2 He3].
    destruct (loc_src g j) as [b|] eqn:Eb; [|discriminate].
    split; [lia|]. split; [exact He1|]. split; [exact En|]. split; [exact Hj|]. exists a, b. split; [exact Ea|]. split; [reflexivity|].
    intros ->. rewrite Ea in He3. cbn in He3. rewrite Nat.eqb_refl in He3. discriminate.
  - intros (H1 & H2 & H3 & H4 & a & b & Ha & Hb & Hne). exists i. split; [apply in_seq; lia|].
    unfold pairs_from. rewrite H3, Ha. apply in_map, filter_In. split; [exact H4|].
    unfold eligible. rewrite Ha, Hb. cbn. rewrite (proj2 (Nat.eqb_neq _ _) H2), (proj2 (Nat.eqb_neq _ _) Hne). reflexivity.
Qed.
Lemma NoDup_map_inj {A B} (f : A -> B) (l : list A) : (forall x y, In x l -> In y l -> f x = f y -> x = y) -> NoDup l -> NoDup (map f l).
Proof.
  intros Hf Hn. induction Hn as [|x l Hx Hn IH]; cbn; constructor.
  - intros H. apply in_map_iff in H. destruct H as (y & Hy & Hin). apply Hx. rewrite (Hf x y); [exact Hin|now left|now right|now symmetry].
  - apply IH. intros a b Ha Hb. apply Hf; now right.
Qed.
Lemma NoDup_app_i {A} (l1 l2 : list A) : NoDup l1 -> NoDup l2 -> (forall x, In x l1 -> In x l2 -> False) -> NoDup (l1 ++ l2).
Proof.
  intros H1 H2 Hd. induction H1 as [|x l Hx H1 IH]; cbn; [exact H2|]. constructor.
  - intros H. apply in_app_or in H. destruct H as [H|H]; [exact (Hx H)|]. apply (Hd x); [now left|exact H].
  - apply IH. intros y Hy. apply Hd. now right.
Qed.
Lemma all_pairs_nodup g : rtree_ok g -> NoDup (all_pairs g).
Proof.
  intros Hr. unfold all_pairs. generalize (seq_NoDup (n_locs g) 0). induction (seq 0 (n_locs g)) as [|i l IH]; intros Hn; [constructor|].
  inversion Hn as [|? ? Hi Hn']; subst. cbn [flat_map].
  assert (Hfst : forall k p, In p (pairs_from g k) -> fst p = k).
  { intros k p. unfold pairs_from. destruct (null_island g k); [intros []|]. destruct (loc_src g k); [|intros []].
    intros H. apply in_map_iff in H. destruct H as (y & <- & _). reflexivity. }
  apply NoDup_app_i; [|auto|].
  - unfold pairs_from. destruct (null_island g i); [constructor|]. destruct (loc_src g i); [|constructor].
    apply NoDup_map_inj; [intros x y _ _ [= ->]; reflexivity|]. apply NoDup_filter, Hr.
  - intros p H1 H2. apply in_flat_map in H2. destruct H2 as (k & Hk & H2). apply Hfst in H1. apply Hfst in H2. subst. auto.
Qed.
Lemma time_of_spec g i j d : LinkTime g i j d <-> d = time_of g i j.
Proof. unfold LinkTime, time_of. lia. Qed.

(** * C76 *)
(** Appended to the footpaths from a stop is one footpath to every stop it is linked with; the same footpath is appended to
    the incoming ones of the other stop; appended to the equivalent stops are the linked ones within 100 m; nothing else
    changes. *)
Theorem C76_nearby_links : forall (g : geo) (st : links), rtree_ok g ->
  let st' := link_nearby_stations g st in
  forall i,
  (exists new, fp_out st' i = fp_out st i ++ new /\ NoDup (map fst new) /\
     forall j d, In (j, d) new <-> Linked g i j /\ LinkTime g i j d) /\
  (exists new, fp_in st' i = fp_in st i ++ new /\ NoDup (map fst new) /\
     forall j d, In (j, d) new <-> Linked g j i /\ LinkTime g j i d) /\
  (exists new, eqv st' i = eqv st i ++ new /\ NoDup new /\
     forall j, In j new <-> Linked g i j /\ close g i j = true).
Proof.
  intros g st Hr st' i. unfold st'. rewrite link_pairs. destruct (fold_links g (all_pairs g) st i) as (H1 & H2 & H3).
  cbn zeta in *. rewrite H1, H2, H3. pose proof (all_pairs_nodup g Hr) as Hn. split; [|split].
  - eexists. split; [reflexivity|]. split.
    + rewrite map_map. cbn [fst]. apply NoDup_map_inj; [|now apply NoDup_filter].
      intros [a b] [a' b'] Ha Hb E. apply filter_In in Ha, Hb. destruct Ha as [_ Ha], Hb as [_ Hb].
      apply Nat.eqb_eq in Ha, Hb. cbn in *. congruence.
    + intros j d. rewrite in_map_iff, time_of_spec. split.
      * intros ([a b] & [= <- <-] & H). apply filter_In in H. destruct H as [H E]. apply Nat.eqb_eq in E. cbn in *. subst a.
        split; [now apply all_pairs_in|reflexivity].
      * intros [H ->]. exists (i, j). split; [reflexivity|]. apply filter_In. split; [now apply all_pairs_in|]. apply Nat.eqb_refl.
  - eexists. split; [reflexivity|]. split.
    + rewrite map_map. cbn [fst]. apply NoDup_map_inj; [|now apply NoDup_filter].
      intros [a b] [a' b'] Ha Hb E. apply filter_In in Ha, Hb. destruct Ha as [_ Ha], Hb as [_ Hb].
      apply Nat.eqb_eq in Ha, Hb. cbn in *. congruence.
    + intros j d. rewrite in_map_iff, time_of_spec. split.
      * intros ([a b] & [= <- <-] & H). apply filter_In in H. destruct H as [H E]. apply Nat.eqb_eq in E. cbn in *. subst b.
        split; [now apply all_pairs_in|reflexivity].
      * intros [H ->]. exists (j, i). split; [reflexivity|]. apply filter_In. split; [now apply all_pairs_in|]. apply Nat.eqb_refl.
  - eexists. split; [reflexivity|]. split.
    + apply NoDup_map_inj; [|now apply NoDup_filter].
      intros [a b] [a' b'] Ha Hb E. apply filter_In in Ha, Hb. destruct Ha as [_ Ha], Hb as [_ Hb].
      apply andb_true_iff in Ha, Hb. destruct Ha as [Ha _], Hb as [Hb _]. apply Nat.eqb_eq in Ha, Hb. cbn in *. congruence.
    + intros j. rewrite in_map_iff. split.
      * intros ([a b] & <- & H). apply filter_In in H. destruct H as [H E]. apply andb_true_iff in E. destruct E as [E Ec].
        apply Nat.eqb_eq in E. cbn in *. subst a. split; [now apply all_pairs_in|exact Ec].
      * intros [H Hc]. exists (i, j). split; [reflexivity|]. apply filter_In. split; [now apply all_pairs_in|].
        cbn. now rewrite Nat.eqb_refl, Hc.
Qed.

(** If incoming and outgoing footpaths mirrored each other before, they do so afterwards. *)
Corollary C76_nearby_links_mirrored : forall (g : geo) (st : links), rtree_ok g ->
  (forall i j d, In (j, d) (fp_out st i) <-> In (i, d) (fp_in st j)) ->
  forall i j d, In (j, d) (fp_out (link_nearby_stations g st) i) <-> In (i, d) (fp_in (link_nearby_stations g st) j).
Proof.
  intros g st Hr Hm i j d. destruct (C76_nearby_links g st Hr i) as ((o & Ho & _ & Hon) & _).
  destruct (C76_nearby_links g st Hr j) as (_ & (n & Hi & _ & Hin) & _). cbn zeta in *.
  rewrite Ho, Hi, !in_app_iff, Hm, Hon, Hin. tauto.
Qed.
(** With a symmetric geometry, stops are linked and equivalent in both directions unless one is at the origin. *)
Corollary C76_links_symmetric : forall (g : geo) (i j : nat),
  (forall a b, In b (in_radius g a) -> In a (in_radius g b)) ->
  Linked g i j -> (j < n_locs g)%nat -> null_island g j = false -> Linked g j i.
Proof.
  intros g i j Hs (H1 & H2 & H3 & H4 & a & b & Ha & Hb & Hne) Hj Hn.
  split; [exact Hj|]. split; [congruence|]. split; [exact Hn|]. split; [auto|]. exists b, a. auto.
Qed.

Lemma fold_children meta children cs : forall (e : nat -> list nat) x,
  fold_left (fun e c1 => let e1 := upd e meta (e meta ++ [c1]) in
                         fold_left (fun e' c2 => upd e' meta (e' meta ++ [c2])) (children c1) e1) cs e x
  = if Nat.eqb x meta then e meta ++ flat_map (fun c : nat => c :: children c) cs else e x.
Proof.
  assert (HI : forall ds (e : nat -> list nat) x,
    fold_left (fun e' c2 => upd e' meta (e' meta ++ [c2])) ds e x = if Nat.eqb x meta then e meta ++ ds else e x).
  { induction ds as [|d ds IH]; intros e x; cbn [fold_left].
    - destruct (Nat.eqb_spec x meta) as [->|]; [now rewrite app_nil_r|reflexivity].
    - rewrite IH. unfold upd. rewrite Nat.eqb_refl. destruct (Nat.eqb_spec x meta); [now rewrite <- app_assoc|reflexivity]. }
  induction cs as [|c cs IH]; intros e x; cbn [fold_left flat_map].
  - destruct (Nat.eqb_spec x meta) as [->|]; [now rewrite app_nil_r|reflexivity].
  - cbn zeta. rewrite IH. rewrite !HI. unfold upd. rewrite Nat.eqb_refl.
    destruct (Nat.eqb_spec x meta) as [->|]; [|reflexivity]. rewrite <- !app_assoc. reflexivity.
Qed.

(** A stop group gets as equivalents exactly the members of the stops its rows name, after those it had; other locations,
    and groups that are not at the origin, are unchanged. *)
Theorem C76_stop_groups : forall (stops : nat -> option nat) (origin : nat -> bool) (children : nat -> list nat)
    (rows : list group_row) (eq : nat -> list nat) (m : nat),
  exists new, add_stop_groups stops origin children rows eq m = eq m ++ new /\
  forall x, In x new <->
    origin m = true /\ exists r l, In r rows /\ stops (gr_group r) = Some m /\ stops (gr_stop r) = Some l /\ Member children l x.
Proof.
  intros stops origin children rows. unfold add_stop_groups.
  induction rows as [|r rows IH]; intros eq m; cbn [fold_left].
  - exists []. split; [now rewrite app_nil_r|]. intros x. split; [intros []|]. intros (_ & r & l & [] & _).
  - destruct (IH (add_group_row stops origin children eq r) m) as (new & He & Hn).
    assert (HR : exists n1, add_group_row stops origin children eq r m = eq m ++ n1 /\
              forall x, In x n1 <-> origin m = true /\ exists l, stops (gr_group r) = Some m /\ stops (gr_stop r) = Some l /\ Member children l x).
    { clear IH He Hn. unfold add_group_row.
      destruct (stops (gr_group r)) as [g|] eqn:Eg.
      2:{ exists []. split; [now rewrite app_nil_r|]. intros x. split; [intros []|]. intros (_ & l & H & _); discriminate. }
      destruct (stops (gr_stop r)) as [l|] eqn:El.
      2:{ exists []. split; [now rewrite app_nil_r|]. intros x. split; [intros []|]. intros (_ & l & _ & H & _); discriminate. }
      destruct (origin g) eqn:Eo; cbn [negb].
      2:{ exists []. split; [now rewrite app_nil_r|]. intros x. split; [intros []|]. intros (H & l' & [= ->] & _); congruence. }
      cbn zeta. rewrite fold_children. unfold upd. rewrite Nat.eqb_refl.
      destruct (Nat.eqb_spec m g) as [->|Hne].
      - eexists. rewrite <- app_assoc. split; [reflexivity|]. intros x. cbn [app In]. rewrite in_flat_map. unfold Member. split.
        + intros [<-|(c & Hc & [<-|Hx])]; (split; [exact Eo|]); exists l; (split; [reflexivity|]); (split; [reflexivity|]); eauto.
        + intros (_ & l' & _ & [= <-] & [->|[H|(c & Hc & Hx)]]); [now left|right; exists x; split; [exact H|now left]|right; exists c; split; [exact Hc|now right]].
      - exists []. split; [now rewrite app_nil_r|]. intros x. split; [intros []|]. intros (_ & l' & [= ->] & _); congruence. }
    destruct HR as (n1 & H1 & H2). rewrite He, H1, <- app_assoc. exists (n1 ++ new). split; [reflexivity|].
    intros x. rewrite in_app_iff, H2, Hn. split.
    + intros [(Ho & l & H)|(Ho & r' & l & Hr & H)]; (split; [exact Ho|]); [exists r, l|exists r', l]; (split; [cbn; auto|exact H]).
    + intros (Ho & r' & l & [<-|Hr] & H); [left|right]; (split; [exact Ho|]); eauto.
Qed.

(** ** Cases *)
(** Stops 0 and 1 of feed 0, 2 of feed 1, 3 without feed, 4 of feed 1 near the origin; all within 300 m. *)
Definition ex_geo : geo := {|
  n_locs := 5; loc_src := fun i => nth i [Some 0%nat; Some 0%nat; Some 1%nat; None; Some 1%nat] None;
  null_island := fun i => Nat.eqb i 4; transfer_time := fun i => nth i [2; 5; 3; 0; 1] 0;
  in_radius := fun i => if Nat.ltb i 5 then [2; 0; 4; 3; 1]%nat else []; walk := fun i j => 4;
  close := fun i j => Nat.eqb (i + j) 2 |}.
Definition no_links : links := {| fp_out := fun _ => []; fp_in := fun _ => []; eqv := fun i => [i] |}.
Example C76_example : let r := link_nearby_stations ex_geo no_links in
  map (fp_out r) (seq 0 5) = [[(2%nat, 4); (4%nat, 4)]; [(2%nat, 5); (4%nat, 5)]; [(0%nat, 4); (1%nat, 5)]; []; []] /\
  map (fp_in r) (seq 0 5) = [[(2%nat, 4)]; [(2%nat, 5)]; [(0%nat, 4); (1%nat, 5)]; []; [(0%nat, 4); (1%nat, 5)]] /\
  map (eqv r) (seq 0 5) = [[0; 2]; [1]; [2; 0]; [3]; [4]]%nat.
Proof. vm_compute. repeat split; reflexivity. Qed.
Example C76_example_rtree : rtree_ok ex_geo.
Proof. intros i. cbn [in_radius ex_geo]. destruct (Nat.ltb i 5); [|constructor]. repeat constructor; cbn; intuition congruence. Qed.
(** Refuted: "a link exists in both directions": the check of the origin is made for one of the two stops only. *)
Example C76_both_directions_refuted : let r := link_nearby_stations ex_geo no_links in
  (exists d, In (4%nat, d) (fp_out r 0%nat)) /\ fp_out r 4%nat = [].
Proof. split; [exists 4|reflexivity]. vm_compute. auto. Qed.
(** Stop 7 with child 8 with child 9; group 1 is at the origin, group 2 is not. *)
Example C76_groups_example :
  let eq := add_stop_groups (fun s => if Nat.ltb s 10 then Some s else None) (fun l => Nat.eqb l 1)
              (fun l => if Nat.eqb l 7 then [8%nat] else if Nat.eqb l 8 then [9%nat] else [])
              [{| gr_group := 1; gr_stop := 7 |}; {| gr_group := 2; gr_stop := 7 |}; {| gr_group := 1; gr_stop := 99 |}; {| gr_group := 1; gr_stop := 3 |}]
              (fun l => [l]) in
  eq 1%nat = [1; 7; 8; 9; 3]%nat /\ eq 2%nat = [2]%nat /\ eq 7%nat = [7]%nat.
Proof. vm_compute. repeat split; reflexivity. Qed.
