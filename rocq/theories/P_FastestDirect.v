(** Property C54: the duration of the fastest direct connection that a search compares its journeys with. *)
From Coq Require Import List ZArith Bool Arith Lia Reals Lra Permutation.
From Flocq Require Import Core.
From Verif Require Import Base Time_Model Raptor_Model Dial_Model Dijkstra_Model Query_Model P_Query Fd_Model Fd_Proofs.
Import ListNotations.
Local Open Scope Z_scope.

(** ** Specification *)
Section Spec.
  Variable L : Dijkstra_Model.locations.
  (** Footpaths in walking direction of the search. *)
  Variable footpaths : nat -> list (nat * Z).
  Variable q : fd_query.

  (** Places reached on foot after [d] minutes: a location matching a start of the query, then footpaths (with adjusted transfer times)
      from destination to destination. *)
  Inductive on_foot : nat -> Z -> Prop :=
  | foot_start s d l : In (s, d) (f_start q) -> In l (Dijkstra_Model.metas L (f_start_mode q) s) -> 0 <= d -> on_foot l d
  | foot_hop u v d w : on_foot u d -> In (v, w) (footpaths u) -> In v (map fst (f_dest q)) ->
      on_foot v (d + adjusted_transfer_time to_u16 (f_tts q) w).
  (** A direct connection of [x] minutes ends with the offset of a destination. *)
  Definition direct_connection (x : Z) : Prop :=
    exists l d o, on_foot l d /\ In (l, o) (f_dest q) /\ 0 <= o /\ x = d + o.
  Definition fastest_direct (bound x : Z) : Prop :=
    direct_connection x /\ x < bound /\ forall y, direct_connection y -> x <= y.
End Spec.

(** The durations of a query and of footpaths fit their types (int16 minutes, 9 bits for footpaths). *)
Record fd_ok (footpaths : nat -> list (nat * Z)) (q : fd_query) : Prop := mk_fd_ok {
  ok_start : forall s d, In (s, d) (f_start q) -> -32768 <= d <= 32767;
  ok_dest : forall t d, In (t, d) (f_dest q) -> -32768 <= d <= 32767;
  ok_paths : forall u v w, In (v, w) (footpaths u) -> 0 <= w <= 511 }.
(** The "end" special station is neither a start nor a destination. *)
Definition no_end (L : Dijkstra_Model.locations) (kEnd : nat) (q : fd_query) : Prop :=
  (forall s d, In (s, d) (f_start q) -> ~ In kEnd (Dijkstra_Model.metas L (f_start_mode q) s)) /\
  ~ In kEnd (map fst (f_dest q)).
(** [keys]: the start locations in the iteration order of the hash map. *)
Definition start_keys (L : Dijkstra_Model.locations) (q : fd_query) (keys : list nat) : Prop :=
  forall l, In l keys <-> exists s d, In (s, d) (f_start q) /\ In l (Dijkstra_Model.metas L (f_start_mode q) s).
(** The result for the fastest direct connection [x]. *)
Definition scaled (factor : R) (x : Z) : Z := Zceil (rnd64 (IZR x * factor)).

Section Bridge.
  Variable L : Dijkstra_Model.locations.
  Variable out inn : nat -> list (nat * Z).
  Variable q : fd_query.
  Variable fwd : bool.
  Notation FP := (if fwd then out else inn).
  Hypothesis OK : fd_ok FP q.

  Lemma entries l d : In (l, d) (start_entries L q) <-> exists s, In (s, d) (f_start q) /\ In l (Dijkstra_Model.metas L (f_start_mode q) s).
  Proof.
    unfold start_entries. rewrite in_flat_map. split.
    - intros ([s e] & H & Hin). apply in_map_iff in Hin as (x & [= <- <-] & Hx). eauto.
    - intros (s & H & Hin). exists (s, d). split; auto. apply in_map_iff. exists l. auto.
  Qed.
  Lemma u16_nonneg d : 0 <= d <= 32767 -> to_u16 d = d.
  Proof. intros. unfold to_u16. apply Z.mod_small. lia. Qed.
  Lemma u16_neg d : -32768 <= d < 0 -> 32768 <= to_u16 d.
  Proof. intros. unfold to_u16. rewrite <- (Z.mod_unique d 65536 (-1) (d + 65536)); lia. Qed.
  Lemma hop_eq u v w : In (v, w) (FP u) -> hop_time q w = adjusted_transfer_time to_u16 (f_tts q) w.
  Proof. intros H. unfold hop_time. rewrite u16_nonneg; auto. apply (ok_paths _ _ OK) in H. lia. Qed.
  Lemma dofs_dest v : dest_offset q v <> None <-> In v (map fst (f_dest q)).
  Proof.
    destruct (dofs_spec q v) as [A B]. split.
    - destruct (dest_offset q v) as [o|]; [|congruence]. intros _. destruct (A o eq_refl) as (d & Hd & _). apply in_map_iff. exists (v, d). auto.
    - intros H. apply in_map_iff in H as ([x d] & E & Hd). cbn in E. subst x. destruct (B d Hd) as (o & -> & _). discriminate.
  Qed.
  Lemma W_on_foot v d : W L out inn q fwd v d -> d < 32767 -> on_foot L FP q v d.
  Proof.
    induction 1 as [l d H|u v d w HW IH He Hv]; intros Hd.
    - apply entries in H as (s & Hs & Hl). pose proof (ok_start _ _ OK s d Hs) as Hr.
      destruct (Z.lt_ge_cases d 0) as [Hn|Hn]; [pose proof (u16_neg d ltac:(lia)); lia|].
      rewrite u16_nonneg by lia. now apply foot_start with s.
    - rewrite (hop_eq u v w He). pose proof (hop_range q w) as Hh. rewrite (hop_eq u v w He) in Hh, Hd.
      apply foot_hop with u; auto; [apply IH; lia|now apply dofs_dest].
  Qed.
  Lemma on_foot_W v d : on_foot L FP q v d -> W L out inn q fwd v d.
  Proof.
    induction 1 as [s d l Hs Hl H0|u v d w HW IH He Hv].
    - rewrite <- (u16_nonneg d) by (pose proof (ok_start _ _ OK s d Hs); lia). apply W_start. apply entries. eauto.
    - rewrite <- (hop_eq u v w He). apply W_hop with u; auto. now apply dofs_dest.
  Qed.
  Lemma foot_nonneg v d : on_foot L FP q v d -> 0 <= d.
  Proof. intros H. apply on_foot_W in H. eapply W_nonneg, H. Qed.
End Bridge.

Definition list_bound (ls : list nat) : nat := S (fold_right Nat.max O ls).
Lemma list_bound_in ls x : In x ls -> (x < list_bound ls)%nat.
Proof.
  unfold list_bound. induction ls as [|y ls IH]; [intros []|]. cbn [fold_right]. intros [->|H]; [lia|specialize (IH H); lia].
Qed.

(** ** C54 *)
(** If the query does not prescribe a value, the computation terminates without accesses outside the bucket array and returns the scaled
    duration of the fastest direct connection; it returns the value "unreachable" (32767) exactly if there is none below the limit.
    The order in which the start locations are enumerated is irrelevant. *)
Theorem C54_fastest_direct_is_shortest_walk :
  forall L out inn kEnd q (fwd : bool) max_dist keys,
    fd_ok (if fwd then out else inn) q -> no_end L kEnd q -> start_keys L q keys ->
    0 < max_dist <= 65535 ->
    (forall s d, In (s, d) (f_start q) -> 0 <= d < max_dist \/ 32767 < max_dist) ->
    f_fixed q = None ->
    exists fuel0 r, (forall fuel, (fuel0 <= fuel)%nat -> get_fastest_direct L out inn kEnd q fwd max_dist keys fuel = Done r) /\
      ((exists x, fastest_direct L (if fwd then out else inn) q (Z.min max_dist 32767) x /\ r = scaled (f_factor q) x) \/
       ((forall x, direct_connection L (if fwd then out else inn) q x -> Z.min max_dist 32767 <= x) /\ r = 32767)).
Proof.
  intros L out inn kEnd q fwd max_dist keys OK NE HK Hmax Hfit Hfix.
  set (N := list_bound (map fst (start_entries L q) ++ map fst (f_dest q))).
  destruct (search_spec L out inn kEnd q fwd max_dist Hmax N) with (keys := keys) as (fuel0 & e & Hopt & Hrun).
  - intros l d H. apply list_bound_in. apply in_or_app. left. apply in_map_iff. exists (l, d). auto.
  - intros l d H. apply list_bound_in. apply in_or_app. right. apply in_map_iff. exists (l, d). auto.
  - intros d H. apply entries in H as (s & Hs & Hl). now apply (proj1 NE s d Hs).
  - intros d H. apply (proj2 NE). apply in_map_iff. exists (kEnd, d). auto.
  - intros l d H. destruct (D0_spec L q l) as (A & B & _). specialize (A d H). apply entries in H as (s & Hs & _).
    destruct (Hfit s d Hs) as [Hd|Hd]; unfold kUnreachableDirect in B; [|lia].
    rewrite u16_nonneg in A by (pose proof (ok_start _ _ OK s d Hs); lia). lia.
  - intros l. split.
    + intros Hl0. apply HK in Hl0 as (s & d & Hs & Hl). exists d. apply entries. eauto.
    + intros (d & H). apply entries in H as (s & Hs & Hl). apply HK. eauto.
  - exists fuel0, (fd_result q e). split.
    + intros fuel Hf. specialize (Hrun fuel Hf). unfold get_fastest_direct. rewrite Hfix.
      destruct (push_starts L q max_dist keys) as [pq|]; [|discriminate]. now rewrite Hrun.
    + destruct Hopt as [Hach Hmin].
      assert (Hall : forall y, direct_connection L (if fwd then out else inn) q y -> y < Z.min max_dist 32767 -> e <= y).
      { intros y (l & d & o & Hf & Ho & Ho0 & ->) Hy. pose proof (ok_dest _ _ OK l o Ho) as Hor.
        destruct (proj2 (dofs_spec q l) o Ho) as (o' & Eo & Hle). rewrite u16_nonneg in Hle by lia.
        assert (HW := on_foot_W L out inn q fwd OK l d Hf). pose proof (dofs_range q l o' Eo).
        specialize (Hmin l d o' HW Eo). unfold lim, kUnreachableDirect in Hmin. specialize (Hmin ltac:(lia)). lia. }
      unfold fd_result, kUnreachableDirect.
      destruct Hach as [-> | ([B1 B2] & v & d & o & HW & Ho & E)].
      * right. unfold kUnreachableDirect. cbn [Z.eqb Pos.eqb]. split; [|reflexivity].
        intros x Hx. destruct (Z.le_gt_cases (Z.min max_dist 32767) x); auto. specialize (Hall x Hx ltac:(lia)). unfold kUnreachableDirect in Hall. lia.
      * left. unfold kUnreachableDirect in B1. pose proof (dofs_range q v o Ho) as Hor.
        pose proof (W_nonneg L out inn q fwd v d HW) as Hd0.
        destruct (proj1 (dofs_spec q v) o Ho) as (od & Hod & Eo).
        pose proof (ok_dest _ _ OK v od Hod) as Hodr.
        assert (0 <= od) by (destruct (Z.lt_ge_cases od 0); [pose proof (u16_neg od ltac:(lia)); lia|lia]).
        rewrite u16_nonneg in Eo by lia. subst o.
        exists e. destruct (Z.eqb_spec e 32767); [lia|]. split; [|reflexivity].
        split; [|split; [lia|]].
        -- exists v, d, od. split; [apply W_on_foot; auto; lia|auto].
        -- intros y Hy. destruct (Z.lt_ge_cases y (Z.min max_dist 32767)); [now apply Hall|lia].
Qed.

(** A value given with the query is returned unchanged. *)
Theorem C54_given_value_is_used : forall L out inn kEnd q fwd max_dist keys fuel d,
  f_fixed q = Some d -> get_fastest_direct L out inn kEnd q fwd max_dist keys fuel = Done d.
Proof. intros. unfold get_fastest_direct. now rewrite H. Qed.

Lemma rnd64_le x y : (x <= y)%R -> (rnd64 x <= rnd64 y)%R.
Proof. intros. unfold rnd64. apply round_le; auto; [apply FLT_exp_valid; unfold Prec_gt_0; lia|apply valid_rnd_N]. Qed.
Lemma rnd64_int d : 0 <= d <= 16777216 -> rnd64 (IZR d) = IZR d.
Proof.
  intros H. unfold rnd64. apply round_generic; [apply valid_rnd_N|].
  apply generic_format_FLT. apply FLT_spec with (Float radix2 d 0).
  - unfold F2R. cbn. lra.
  - cbn [Fnum]. change (Z.pow_pos 2 53) with 9007199254740992. rewrite Z.abs_eq by lia. cbn. lia.
  - cbn. lia.
Qed.
(** With the default factor the fastest direct connection itself is returned; with a factor of at least 1 (at most 1) nothing shorter
    (longer) is returned: a journey that is dropped for a factor of at most 1 is never faster than an existing direct connection. *)
Theorem C54_factor : forall x f, 0 <= x <= 32767 ->
  scaled 1 x = x /\ ((1 <= f)%R -> x <= scaled f x) /\ ((f <= 1)%R -> scaled f x <= x).
Proof.
  intros x f Hx. unfold scaled. split; [|split].
  - rewrite Rmult_1_r, rnd64_int by lia. apply Zceil_IZR.
  - intros Hf. rewrite <- (Zceil_IZR x) at 1. apply Zceil_le. rewrite <- (rnd64_int x) at 1 by lia. apply rnd64_le.
    assert (0 <= IZR x)%R by (apply (IZR_le 0); lia). nra.
  - intros Hf. rewrite <- (Zceil_IZR x) at 2. apply Zceil_le. rewrite <- (rnd64_int x) at 2 by lia. apply rnd64_le.
    assert (0 <= IZR x)%R by (apply (IZR_le 0); lia). nra.
Qed.

(** *** Transitively closed footpaths *)
(** Two consecutive footpaths are never faster than the direct footpath (property C39). *)
Definition closed (footpaths : nat -> list (nat * Z)) : Prop :=
  forall a b c d e, In (b, d) (footpaths a) -> In (c, e) (footpaths b) -> a = c \/ exists f, In (c, f) (footpaths a) /\ f <= d + e.
(** A direct connection with at most one footpath. *)
Definition simple_connection (L : Dijkstra_Model.locations) (footpaths : nat -> list (nat * Z)) (q : fd_query) (x : Z) : Prop :=
  exists s d l, In (s, d) (f_start q) /\ In l (Dijkstra_Model.metas L (f_start_mode q) s) /\ 0 <= d /\
    ((exists o, In (l, o) (f_dest q) /\ 0 <= o /\ x = d + o) \/
     (exists t w o, In (t, w) (footpaths l) /\ In (t, o) (f_dest q) /\ 0 <= o /\ x = d + w + o)).
Theorem C54_one_footpath_suffices : forall L footpaths q bound x,
  fd_ok footpaths q -> closed footpaths -> t_default (f_tts q) = true ->
  (fastest_direct L footpaths q bound x <->
   simple_connection L footpaths q x /\ x < bound /\ forall y, simple_connection L footpaths q y -> x <= y).
Proof.
  intros L fps q bound x OK HC Ht.
  assert (ADJ : forall w, adjusted_transfer_time to_u16 (f_tts q) w = w) by (intros; unfold adjusted_transfer_time; now rewrite Ht).
  assert (A : forall y, simple_connection L fps q y -> direct_connection L fps q y).
  { intros y (s & d & l & Hs & Hl & Hd & [(o & Ho & Ho0 & ->)|(t & w & o & Hw & Ho & Ho0 & ->)]).
    - exists l, d, o. split; [now apply foot_start with s|auto].
    - exists t, (d + w), o. split; [|auto]. rewrite <- (ADJ w). apply foot_hop with l; auto; [now apply foot_start with s|].
      apply in_map_iff. exists (t, o). auto. }
  assert (B : forall y, direct_connection L fps q y -> exists z, simple_connection L fps q z /\ z <= y).
  { intros y (l & d & o & Hf & Ho & Ho0 & ->).
    assert (G : exists s d0 l0, In (s, d0) (f_start q) /\ In l0 (Dijkstra_Model.metas L (f_start_mode q) s) /\ 0 <= d0 /\
                  ((l = l0 /\ d0 <= d) \/ exists w, In (l, w) (fps l0) /\ d0 + w <= d)).
    { clear o Ho Ho0. induction Hf as [s d l Hs Hl H0|u v d w _ (s & d0 & l0 & Hs & Hl & Hd0 & IH) He Hv].
      - exists s, d, l. do 3 (split; [auto|]). left. split; [auto|lia].
      - exists s, d0, l0. do 3 (split; [auto|]). rewrite ADJ. pose proof (ok_paths _ _ OK u v w He). destruct IH as [[-> H1]|(a & Ha & H1)].
        + right. exists w. split; [auto|lia].
        + pose proof (ok_paths _ _ OK l0 u a Ha). destruct (HC l0 u v a w Ha He) as [->|(f & Hf & Hle)]; [left; split; [auto|lia]|right; exists f; split; [auto|lia]]. }
    destruct G as (s & d0 & l0 & Hs & Hl & Hd0 & [[-> H1]|(w & Hw & H1)]).
    - exists (d0 + o). split; [|lia]. exists s, d0, l0. do 3 (split; [auto|]). left. exists o. auto.
    - exists (d0 + w + o). split; [|lia]. exists s, d0, l0. do 3 (split; [auto|]). right. exists l, w, o. auto. }
  unfold fastest_direct. split.
  - intros (H1 & H2 & H3). destruct (B x H1) as (z & Hz & Hle). assert (z = x) by (specialize (H3 z (A z Hz)); lia). subst z.
    split; [auto|]. split; [auto|]. intros y Hy. apply H3, A, Hy.
  - intros (H1 & H2 & H3). split; [auto|]. split; [auto|]. intros y Hy. destruct (B y Hy) as (z & Hz & Hle). specialize (H3 z Hz). lia.
Qed.

(** Searching backwards from the destinations gives the same duration as searching forwards from the starts if locations are matched
    exactly (in both queries), footpaths are closed and the incoming footpaths mirror the outgoing ones. *)
Definition flipped (q : fd_query) : fd_query := mk_fdq (f_fixed q) (f_dest q) Dijkstra_Model.kExact (f_start q) (f_tts q) (f_factor q).
Theorem C54_direction_independent : forall L out inn q bound x,
  fd_ok out q -> fd_ok inn (flipped q) -> closed out -> closed inn -> t_default (f_tts q) = true ->
  (forall a b d, In (b, d) (out a) <-> In (a, d) (inn b)) -> f_start_mode q = Dijkstra_Model.kExact ->
  (fastest_direct L out q bound x <-> fastest_direct L inn (flipped q) bound x).
Proof.
  intros L out inn q bound x OK1 OK2 C1 C2 Ht HM Hm.
  rewrite (C54_one_footpath_suffices L out q bound x OK1 C1 Ht), (C54_one_footpath_suffices L inn (flipped q) bound x OK2 C2 Ht).
  assert (S : forall y, simple_connection L out q y <-> simple_connection L inn (flipped q) y).
  { intros y. unfold simple_connection. rewrite Hm. cbn [flipped f_start f_dest f_start_mode Dijkstra_Model.metas]. split.
    - intros (s & d & l & Hs & [<-|[]] & Hd & [(o & Ho & Ho0 & ->)|(t & w & o & Hw & Ho & Ho0 & ->)]).
      + exists s, o, s. split; [auto|]. split; [now left|]. split; [auto|]. left. exists d. split; [auto|]. split; [auto|lia].
      + exists t, o, t. split; [auto|]. split; [now left|]. split; [auto|]. right. exists s, w, d. split; [now apply HM|]. split; [auto|]. split; [auto|lia].
    - intros (s & d & l & Hs & [<-|[]] & Hd & [(o & Ho & Ho0 & ->)|(t & w & o & Hw & Ho & Ho0 & ->)]).
      + exists s, o, s. split; [auto|]. split; [now left|]. split; [auto|]. left. exists d. split; [auto|]. split; [auto|lia].
      + exists t, o, t. split; [auto|]. split; [now left|]. split; [auto|]. right. exists s, w, d. split; [now apply HM|]. split; [auto|]. split; [auto|lia]. }
  split; intros (H1 & H2 & H3); (split; [now apply S|]); (split; [auto|]); intros y Hy; apply H3; now apply S.
Qed.

(** *** Example *)
Module ExampleDirect.
  (** Station 0 with the platform 1; stops 2, 3 in walking distance of the platform only; 4 is the special station. *)
  Definition L : Dijkstra_Model.locations :=
    Dijkstra_Model.mk_locs 5 (fun l => match l with 1%nat => Some 0%nat | _ => None end)
      (fun l => match l with 0%nat => [1%nat] | _ => [] end) (fun _ => []) (fun _ => false).
  Definition out (l : nat) : list (nat * Z) := match l with 1%nat => [(2%nat, 6); (3%nat, 14)] | 2%nat => [(3%nat, 5); (1%nat, 6)] | 3%nat => [(2%nat, 5); (1%nat, 14)] | _ => [] end.
  Definition settings : tts := mk_tts true 0 0 1.
  Definition q (m : Dijkstra_Model.match_mode) : fd_query := mk_fdq None [(0%nat, 2)] m [(3%nat, 3); (2%nat, 11); (3%nat, 4)] settings 1.
  Lemma fp_ok m : fd_ok out (q m).
  Proof.
    constructor.
    - intros s d [[= <- <-]|[]]; lia.
    - intros s d H. cbn in H. repeat destruct H as [[= <- <-]|H]; try destruct H; lia.
    - intros u v w H. do 4 (destruct u as [|u]; [cbn in H; repeat destruct H as [[= <- <-]|H]; try destruct H; lia|]). destruct H.
  Qed.
  (** 2 + 6 to stop 2, 5 more to stop 3, 3 to the destination: 16 minutes. *)
  Example C54_nonvacuous :
    fd_ok out (q Dijkstra_Model.kEquivalent) /\ no_end L 4 (q Dijkstra_Model.kEquivalent) /\
    start_keys L (q Dijkstra_Model.kEquivalent) [1; 0]%nat /\
    fastest_direct L out (q Dijkstra_Model.kEquivalent) 32767 16 /\
    fd_loop out out 4 (q Dijkstra_Model.kEquivalent) true 100 50 (start_dists L (q Dijkstra_Model.kEquivalent))
      (match push_starts L (q Dijkstra_Model.kEquivalent) 100 [1; 0]%nat with Some pq => pq | None => new_queue 0 end) 32767 = Done 16.
  Proof.
    split; [apply fp_ok|]. split.
    { split; [intros s d [[= <- <-]|[]] HH; cbn in HH; intuition discriminate|].
      cbn. intuition discriminate. }
    split.
    { intros l. cbn. split.
      - intros [<-|[<-|[]]]; exists 0%nat, 2; (split; [now left|]); cbn; [right; left; reflexivity|left; reflexivity].
      - intros (s & d & [[= <- <-]|[]] & HH). cbn in HH. destruct HH as [<-|[<-|[]]]; auto. }
    split; [|vm_compute; reflexivity].
    assert (F1 : on_foot L out (q Dijkstra_Model.kEquivalent) 1 2).
    { apply foot_start with 0%nat; [now left|cbn; auto|lia]. }
    assert (F2 : on_foot L out (q Dijkstra_Model.kEquivalent) 2 8).
    { apply (foot_hop L out (q Dijkstra_Model.kEquivalent) 1 2 2 6 F1); cbn; auto. }
    assert (F3 : on_foot L out (q Dijkstra_Model.kEquivalent) 3 13).
    { apply (foot_hop L out (q Dijkstra_Model.kEquivalent) 2 3 8 5 F2); cbn; auto. }
    split; [exists 3%nat, 13, 3; split; [exact F3|]; split; [now left|lia]|]. split; [lia|].
    intros y (l & d & o & Hf & Ho & Ho0 & ->).
    assert (G : (l = 0%nat /\ d >= 2) \/ (l = 1%nat /\ d >= 2) \/ (l = 2%nat /\ d >= 8) \/ (l = 3%nat /\ d >= 13)).
    { clear o Ho Ho0. induction Hf as [s d l Hs Hl H0|u v d w _ IH He Hv].
      - destruct Hs as [[= <- <-]|[]]. cbn in Hl. destruct Hl as [<-|[<-|[]]]; [left|right; left]; split; auto; lia.
      - unfold adjusted_transfer_time. cbn [t_default f_tts q settings].
        destruct IH as [[-> HI]|[[-> HI]|[[-> HI]|[-> HI]]]]; cbn in He; repeat destruct He as [[= <- <-]|He]; try destruct He;
          cbn in Hv; repeat destruct Hv as [Hv|Hv]; try discriminate; try destruct Hv;
          first [right; right; right; split; [reflexivity|lia]|right; right; left; split; [reflexivity|lia]]. }
    cbn in Ho. repeat destruct Ho as [[= <- <-]|Ho]; try destruct Ho; destruct G as [[G1 G]|[[G1 G]|[[G1 G]|[G1 G]]]]; try discriminate; lia.
  Qed.
End ExampleDirect.

(** The match mode of the destination is ignored: with station matching on both sides, the forward search from the station finds the walk
    from its platform, the backward search from the stop with the station as its destination does not. *)
Theorem C54_destination_matching_refuted :
  ~ (forall L out m s t f, let q := mk_fdq None [(s, 0)] m [(t, 0)] (mk_tts true 0 0 1) 1 in
       let q' := mk_fdq None [(t, 0)] m [(s, 0)] (mk_tts true 0 0 1) 1 in
       (forall a b d, In (b, d) (out a) <-> In (a, d) (out b)) ->
       fastest_direct L out q 32767 f -> exists f', fastest_direct L out q' 32767 f').
Proof.
  intros HREF.
  set (out := fun l : nat => match l with 1%nat => [(2%nat, 6)] | 2%nat => [(1%nat, 6)] | _ => [] end).
  destruct (HREF ExampleDirect.L out Dijkstra_Model.kOnlyChildren 0%nat 2%nat 6) as (f' & (l & d & o & Hf & Ho & _) & _).
  - assert (G : forall a b d, In (b, d) (out a) -> In (a, d) (out b)).
    { intros a b d Hin. do 3 (destruct a as [|a]; [cbn in Hin; first [contradiction|destruct Hin as [[= <- <-]|[]]; now left]|]). destruct Hin. }
    intros a b d. split; apply G.
  - split; [|split; [lia|]].
    + exists 2%nat, 6, 0. split; [|split; [now left|lia]].
      refine (foot_hop _ out _ 1 2 0 6 _ _ _); [|now left|now left]. apply foot_start with 0%nat; [now left|cbn; auto|lia].
    + intros y (l & d & o & Hf & Ho & Ho0 & ->).
      assert (G : l <> 2%nat \/ d >= 6).
      { clear o Ho Ho0. assert (0 <= d /\ (l <> 2%nat \/ d >= 6)) as [_ ?]; [|assumption].
        induction Hf as [s d l Hs Hl H0|u v d w _ [IH1 IH2] He Hv].
        - destruct Hs as [[= <- <-]|[]]. split; [lia|]. left. cbn in Hl. intros ->. intuition discriminate.
        - unfold adjusted_transfer_time. cbn [t_default f_tts].
          do 3 (destruct u as [|u]; [cbn in He; first [contradiction|destruct He as [[= <- <-]|[]]; lia]|]). destruct He. }
      destruct Ho as [[= <- <-]|[]]. destruct G; [congruence|lia].
  - destruct Ho as [[= <- <-]|[]].
    enough (GG : forall v e, on_foot ExampleDirect.L out (mk_fdq None [(2%nat, 0)] Dijkstra_Model.kOnlyChildren [(0%nat, 0)] (mk_tts true 0 0 1) 1) v e -> v = 2%nat).
    { apply GG in Hf. discriminate. }
    induction 1 as [s e v Hs Hl H0|u v e w _ IH He Hv].
    + destruct Hs as [[= <- <-]|[]]. cbn in Hl. destruct Hl as [<-|[]]. reflexivity.
    + subst u. cbn in He. destruct He as [[= <- <-]|[]]. cbn in Hv. destruct Hv as [Hv|[]]. discriminate.
Qed.
(** A start offset that is not below the limit is written outside the bucket array. *)
Theorem C54_start_beyond_limit_undefined : forall L out inn kEnd q fwd max_dist keys fuel l,
  f_fixed q = None -> In l keys -> 0 < max_dist <= start_dists L q l ->
  get_fastest_direct L out inn kEnd q fwd max_dist keys fuel = Undefined.
Proof.
  intros L out inn kEnd q fwd max_dist keys fuel l Hfix Hl Hd. unfold get_fastest_direct. rewrite Hfix.
  assert (E : push_starts L q max_dist keys = None).
  { unfold push_starts. assert (HN : forall ks, fold_left (fun pq l => match pq with Some pq => dial_push get_bucket pq (l, start_dists L q l) | None => None end) ks None = None)
      by (induction ks; auto).
    assert (G : forall ks pq, length (q_buckets pq) = Z.to_nat max_dist -> In l ks ->
       fold_left (fun pq l => match pq with Some pq => dial_push get_bucket pq (l, start_dists L q l) | None => None end) ks (Some pq) = None).
    { induction ks as [|k ks IH]; intros pq Hlen Hin; [destruct Hin|]. cbn [fold_left].
      unfold dial_push at 2. rewrite Hlen.
      destruct (Nat.ltb_spec (get_bucket (k, start_dists L q k)) (Z.to_nat max_dist)) as [Hk|Hk]; [|apply HN].
      destruct Hin as [->|Hin]; [unfold get_bucket in Hk; cbn [snd] in Hk; lia|]. apply IH; auto. cbn [q_buckets]. rewrite set_nth_length. exact Hlen. }
    apply G; auto. cbn. now rewrite repeat_length. }
  now rewrite E.
Qed.
Print Assumptions C54_fastest_direct_is_shortest_walk.
