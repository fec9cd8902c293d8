(** C45: location matching (include/nigiri/for_each_meta.h, timetable.h:62-75). *)
From Coq Require Import List ZArith Bool Arith Lia.
From Verif Require Import Base Query_Model P_Query.
From Verif Require Dijkstra_Model.
Import ListNotations.
Local Open Scope nat_scope.

(** ** Specification *)
(** [climbs L l n r]: [r] is the [n]-th ancestor of [l]. *)
Inductive climbs (L : locations) : nat -> nat -> nat -> Prop :=
| cl_here l : climbs L l 0 l
| cl_up l p n r : ls_parent L l = Some p -> climbs L p n r -> climbs L l (S n) r.
Definition has_no_parent (L : locations) (l : nat) : Prop := ls_parent L l = None.

(** Places that satisfy a query location [a] under a match mode. *)
Definition covered (L : locations) (mode : match_mode) (a b : nat) : Prop :=
  match mode with
  | kExact => b = a
  | kIntermodal => b = a \/ (In b (ls_children L a) /\ ls_generated L b = true)
  | kOnlyChildren => in_station L a b
  | kEquivalent => in_station L (get_root_idx L a) b \/ exists e, In e (ls_equiv L a) /\ in_station L e b
  end.

(** ** Root of a location *)
Lemma climbs_unique L l n r : climbs L l n r -> forall m q, climbs L l m q -> has_no_parent L r -> has_no_parent L q -> n = m /\ r = q.
Proof.
  unfold has_no_parent. induction 1 as [l|l p n r Hp Hc IH]; intros m q H Hr Hq; inversion H; subst; auto; try congruence.
  rewrite Hp in H0. injection H0 as <-. destruct (IH _ _ H1 Hr Hq). auto.
Qed.
Lemma climbs_trans L a n b m c : climbs L a n b -> climbs L b m c -> climbs L a (n + m) c.
Proof. induction 1; intros H2; cbn; auto. econstructor; eauto. Qed.
(** Nothing above a location whose ancestors end can lead back to it. *)
Lemma climbs_acyclic L l n r : climbs L l n r -> has_no_parent L r -> forall m, climbs L l (S m) l -> False.
Proof.
  intros H Hr m C.
  assert (K : forall k, exists j, j >= k /\ climbs L l j l).
  { induction k as [|k (j & Hj & Cj)]; [exists 0; split; [lia|constructor]|]. exists (S m + j). split; [lia|]. eapply climbs_trans; eauto. }
  destruct (K (S n)) as (j & Hj & Cj). pose proof (climbs_trans _ _ _ _ _ _ Cj H) as T.
  destruct (climbs_unique _ _ _ _ H _ _ T Hr Hr). lia.
Qed.
Lemma root_loop_climbs L idx : forall fuel l i k n r,
  climbs L idx k l -> climbs L l n r -> has_no_parent L r -> i + n <= 21 -> n < fuel ->
  root_loop fuel L idx l i = r.
Proof.
  induction fuel as [|fuel IH]; intros l i k n r Hk Hn Hr Hi Hf; [lia|]. cbn [root_loop].
  inversion Hn as [l' E|l' p n' r' Hp Hc E1 E2 E3]; subst.
  - red in Hr. now rewrite Hr.
  - rewrite Hp. destruct (Nat.eqb_spec p idx) as [->|Hne].
    + exfalso. assert (C : climbs L idx (k + 1) idx) by (eapply climbs_trans; [exact Hk|]; econstructor; [exact Hp|constructor]).
      rewrite Nat.add_1_r in C. eapply climbs_acyclic; [exact Hc|exact Hr|exact C].
    + destruct (Nat.ltb_spec 20 i) as [Hl|Hl]; [lia|]. cbn [orb].
      eapply (IH p (S i) (k + 1)); [| exact Hc|exact Hr|lia|lia].
      eapply climbs_trans; [exact Hk|]. econstructor; [exact Hp|constructor].
Qed.
(** The root is the topmost ancestor, for hierarchies with up to 22 levels. *)
Theorem C45_root_is_topmost_ancestor : forall L l n r,
  climbs L l n r -> has_no_parent L r -> n <= 21 -> get_root_idx L l = r.
Proof. intros L l n r H Hr Hn. unfold get_root_idx. apply (root_loop_climbs L l 23 l 0 0 n r); auto; [constructor|lia]. Qed.
(** Everything in one hierarchy has the same root. *)
Corollary C45_same_hierarchy_same_root : forall L a b n m r,
  climbs L a n r -> climbs L b m r -> has_no_parent L r -> n <= 21 -> m <= 21 -> get_root_idx L a = get_root_idx L b.
Proof.
  intros L a b n m r Ha Hb Hr Hn Hm.
  rewrite (C45_root_is_topmost_ancestor L a n r Ha Hr Hn). symmetry. now apply (C45_root_is_topmost_ancestor L b m r).
Qed.
(** A parent cycle (malformed feed) does not hang the lookup and is answered with the direct parent. *)
Lemma root_loop_cycle L idx q : forall fuel l i k n,
  ls_parent L idx = Some q -> climbs L idx k l -> climbs L l (S n) idx -> (forall m, m <= n -> m > 0 -> ~ climbs L l m idx) -> n < fuel -> root_loop fuel L idx l i = q.
Proof.
  induction fuel as [|fuel IH]; intros l i k n Hq Hk Hn Hmin Hf; [lia|]. cbn [root_loop].
  inversion Hn as [|l' p n' r' Hp Hc E1 E2 E3]; subst. rewrite Hp.
  destruct (Nat.eqb_spec p idx) as [->|Hne]; cbn [orb]; [now rewrite Hq|].
  destruct (Nat.ltb_spec 20 i); [now rewrite Hq|].
  destruct n as [|n]; [inversion Hc; subst; congruence|].
  apply (IH p (S i) (k + 1) n); auto; [| |lia].
  - eapply climbs_trans; [exact Hk|]. econstructor; [exact Hp|constructor].
  - intros m Hm Hm0 C. apply (Hmin (S m)); [lia|lia|]. econstructor; eauto.
Qed.
Theorem C45_root_of_cycle : forall L l n q,
  ls_parent L l = Some q -> climbs L l (S n) l -> (forall m, m <= n -> m > 0 -> ~ climbs L l m l) -> n <= 21 -> get_root_idx L l = q.
Proof. intros L l n q Hq Hc Hm Hn. unfold get_root_idx. apply (root_loop_cycle L l q 23 l 0 0 n); auto; [constructor|lia]. Qed.

(** ** Enumerated and matched locations *)
Theorem C45_enumerated_locations : forall L mode a b, In b (metas L mode a) <-> covered L mode a b.
Proof.
  intros L mode a b. destruct mode; cbn [metas covered].
  - cbn [In]. split; [intros [->|[]]; auto|intros ->; auto].
  - apply in_station_list.
  - rewrite in_app_iff, in_station_list, in_flat_map. split; intros [H|(e & He & H)]; auto; right; exists e; split; auto; now apply in_station_list.
  - cbn [In]. rewrite filter_In. split; intros [H|H]; auto.
Qed.
(** Matching and enumeration agree, except that a location always matches itself. *)
Theorem C45_matching_agrees_with_enumeration : forall L mode a b,
  matches L mode a b = true <-> b = a \/ covered L mode a b.
Proof.
  intros L mode a b. rewrite <- C45_enumerated_locations.
  assert (E : forall l, existsb (fun c => Nat.eqb c b) l = true <-> In b l).
  { intros l. rewrite existsb_exists. split; [intros (x & Hx & Ex); apply Nat.eqb_eq in Ex; now subst|]. intros H. exists b. split; auto. apply Nat.eqb_refl. }
  destruct mode; cbn [matches].
  - rewrite Nat.eqb_eq. cbn [metas In]. split; [intros ->; auto|intros [->|[->|[]]]; auto].
  - rewrite orb_true_iff, Nat.eqb_eq, E. split; intros [->|H]; auto.
  - rewrite orb_true_iff, Nat.eqb_eq, E. split; intros [->|H]; auto.
  - rewrite orb_true_iff, Nat.eqb_eq, E. split; intros [->|H]; auto.
Qed.
(** Station matching treats the tracks of one station alike: everything within two levels below the common root matches. *)
Theorem C45_stations_match_across_tracks : forall L a n r b,
  climbs L a n r -> has_no_parent L r -> n <= 21 -> in_station L r b -> matches L kEquivalent a b = true.
Proof.
  intros L a n r b Hc Hr Hn Hb. apply C45_matching_agrees_with_enumeration. right. cbn [covered]. left.
  now rewrite (C45_root_is_topmost_ancestor L a n r).
Qed.
(** The copy of the function in the lower bound model is the same function. *)
Definition as_lo (L : locations) (n : nat) : Dijkstra_Model.locations :=
  Dijkstra_Model.mk_locs n (ls_parent L) (ls_children L) (ls_equiv L) (ls_generated L).
Definition as_mode (m : match_mode) : Dijkstra_Model.match_mode :=
  match m with kExact => Dijkstra_Model.kExact | kOnlyChildren => Dijkstra_Model.kOnlyChildren | kEquivalent => Dijkstra_Model.kEquivalent
             | kIntermodal => Dijkstra_Model.kIntermodal end.
Lemma root_loop_copy L n idx : forall fuel l i, i + fuel = 23 ->
  Dijkstra_Model.root_loop fuel (as_lo L n) idx l i = root_loop (S fuel) L idx l i.
Proof.
  induction fuel as [|fuel IH]; intros l i Hi.
  - cbn. destruct (ls_parent L l) as [p|]; [|reflexivity]. destruct (Nat.eqb p idx); cbn [orb]; [reflexivity|].
    destruct (Nat.leb 21 i) eqn:E; [reflexivity|]. apply Nat.leb_gt in E. lia.
  - change (Dijkstra_Model.root_loop (S fuel) (as_lo L n) idx l i) with
      (match ls_parent L l with None => l | Some p => if Nat.eqb p idx || Nat.ltb 20 i then match ls_parent L idx with Some q => q | None => l end
        else Dijkstra_Model.root_loop fuel (as_lo L n) idx p (S i) end).
    change (root_loop (S (S fuel)) L idx l i) with
      (match ls_parent L l with None => l | Some p => if Nat.eqb p idx || Nat.ltb 20 i then match ls_parent L idx with Some q => q | None => l end
        else root_loop (S fuel) L idx p (S i) end).
    destruct (ls_parent L l) as [p|]; [|reflexivity]. destruct (Nat.eqb p idx || Nat.ltb 20 i); [reflexivity|]. apply IH. lia.
Qed.
Lemma root_loop_fuel L idx : forall f l i, i + f >= 22 -> i <= 22 -> f >= 1 -> forall f', f' >= f -> root_loop f' L idx l i = root_loop f L idx l i.
Proof.
  induction f as [|f IH]; intros l i Hi Hi2 H1 f' Hf'; [lia|]. destruct f' as [|f']; [lia|].
  cbn [root_loop]. destruct (ls_parent L l) as [p|]; [|reflexivity].
  destruct (Nat.eqb p idx); cbn [orb]; [reflexivity|]. destruct (Nat.ltb_spec 20 i); [reflexivity|]. apply IH; lia.
Qed.
Theorem C45_lower_bounds_use_the_same_matching : forall L n mode l,
  Dijkstra_Model.metas (as_lo L n) (as_mode mode) l = metas L mode l.
Proof.
  intros L n mode l. destruct mode; cbn [as_mode Dijkstra_Model.metas metas]; try reflexivity.
  assert (E : Dijkstra_Model.get_root_idx (as_lo L n) l = get_root_idx L l).
  { unfold Dijkstra_Model.get_root_idx, get_root_idx. rewrite root_loop_copy by reflexivity. apply root_loop_fuel; lia. }
  rewrite E. reflexivity.
Qed.

(** A station 0 with platforms 1, 2, a generated track 3 below platform 1, an equivalent station 4 with platform 5. *)
Definition ex_locs : locations :=
  mk_locs (fun l => match l with 1 | 2 => Some 0 | 3 => Some 1 | 5 => Some 4 | _ => None end)
          (fun l => match l with 0 => [1; 2] | 1 => [3] | 4 => [5] | _ => [] end)
          (fun l => match l with 3 => [4] | _ => [] end)
          (fun l => Nat.eqb l 3).
Example C45_example :
  climbs ex_locs 3 2 0 /\ has_no_parent ex_locs 0 /\ get_root_idx ex_locs 3 = 0 /\
  map (matches ex_locs kEquivalent 3) [0; 1; 2; 3; 4; 5; 6] = [true; true; true; true; true; true; false] /\
  map (matches ex_locs kIntermodal 1) [0; 1; 2; 3] = [false; true; false; true] /\
  map (matches ex_locs kOnlyChildren 0) [0; 1; 2; 3; 4] = [true; true; true; true; false].
Proof.
  split; [econstructor; [reflexivity|]; econstructor; [reflexivity|constructor]|]. repeat split.
Qed.
Print Assumptions C45_matching_agrees_with_enumeration.
