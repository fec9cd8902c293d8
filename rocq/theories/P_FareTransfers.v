(** C70: joining the legs of a fare into tickets by transfer rules. *)
From Coq Require Import List ZArith Lia Bool Arith.
From Verif Require Import Base Fares_Model P_Fares.
Import ListNotations.
Local Open Scope Z_scope.

(** * Specification *)
(** The leg group of the rule is the leg's, or it is empty and no transfer rule names the leg's group in this field. *)
Definition GroupFits (rs : list transfer_rule) (sel : transfer_rule -> option nat) (r : transfer_rule) (g : option nat) : Prop :=
  match sel r with Some x => g = Some x | None => forall r', In r' rs -> forall x, g = Some x -> sel r' <> Some x end.
Definition duration (ty : limit_type) (from b : fare_leg) : Z :=
  match ty with
  | CurrDepNextArr => e_arr b - e_dep from
  | CurrDepNextDep => e_dep b - e_dep from
  | CurrArrNextDep => e_dep b - e_arr from
  | CurrArrNextArr => e_arr b - e_arr from
  end.
(** Transfer rule [r] covers the transfer from leg [a] to leg [b] on a ticket that starts with leg [from]; only the
    first leg rule of a leg counts. *)
Definition Fits (rs : list transfer_rule) (r : transfer_rule) (from a b : fare_leg) : Prop :=
  exists ra rb ta tb, fl_rules a = ra :: ta /\ fl_rules b = rb :: tb /\
  GroupFits rs tr_from r (lr_group ra) /\ GroupFits rs tr_to r (lr_group rb) /\
  forall lim, tr_limit r = Some lim -> duration (tr_limit_type r) from b <= lim.
Definition NoRule (rs : list transfer_rule) (a b : fare_leg) : Prop := forall r, In r rs -> ~ Fits rs r a a b.
(** The first fitting rule in file order. *)
Definition FirstFit (rs : list transfer_rule) (r : transfer_rule) (a b : fare_leg) : Prop :=
  exists p q, rs = p ++ r :: q /\ Fits rs r a a b /\ forall r', In r' p -> ~ Fits rs r' a a b.
Definition rules_at (tt : ftt) (src : nat) : list transfer_rule := fs_transfers (ft_fares tt src).

Lemma group_ok_spec rs sel r g : group_ok (sel r) g (concrete sel rs) = true <-> GroupFits rs sel r g.
Proof.
  unfold group_ok, GroupFits, concrete. destruct (sel r) as [x|].
  - cbn [orb]. rewrite oeqb_eq. split; congruence.
  - destruct g as [y|].
    + rewrite orb_true_iff, negb_true_iff. split.
      * intros [H|H]; [|discriminate]. intros r' HI z [= <-] E. assert (X : memb y (somes (map sel rs)) = true); [|congruence]. apply memb_in, somes_in. rewrite <- E. now apply in_map.
      * intros H. left. destruct (memb y (somes (map sel rs))) eqn:E; [|reflexivity]. apply memb_in, somes_in, in_map_iff in E. destruct E as (r' & E & HI). exfalso. apply (H r' HI y eq_refl E).
    + cbn. split; [intros _ r' _ x [=]|reflexivity].
Qed.
Lemma limit_spec r from b : limit_end r b - limit_start r from = duration (tr_limit_type r) from b.
Proof. unfold limit_end, limit_start, duration. destruct (tr_limit_type r); reflexivity. Qed.
Lemma matches_spec rs r from a b : matches rs r from a b = true <-> Fits rs r from a b.
Proof.
  unfold matches, Fits. destruct (fl_rules a) as [|ra ta]; [split; [discriminate|intros (? & ? & ? & ? & H & _); discriminate]|].
  destruct (fl_rules b) as [|rb tb]; [split; [discriminate|intros (? & ? & ? & ? & _ & H & _); discriminate]|].
  rewrite !andb_true_iff, !group_ok_spec, limit_spec. split.
  - intros ((H1 & H2) & H3). exists ra, rb, ta, tb. split; [auto|]. split; [auto|]. split; [auto|]. split; [auto|]. intros lim E. rewrite E in H1. now apply Z.leb_le.
  - intros (ra' & rb' & ta' & tb' & [= <- <-] & [= <- <-] & H1 & H2 & H3). split; [split; [|auto]|auto]. destruct (tr_limit r) as [lim|]; [|reflexivity]. apply Z.leb_le. auto.
Qed.
Lemma find_spec {A : Type} (p : A -> bool) l x : find p l = Some x <-> exists a b, l = a ++ x :: b /\ p x = true /\ forall y, In y a -> p y = false.
Proof.
  induction l as [|y l IH]; cbn.
  - split; [discriminate|]. intros (a & b & H & _). now destruct a.
  - destruct (p y) eqn:E.
    + split.
      * intros [= ->]. exists [], l. split; [reflexivity|]. split; [exact E|]. intros ? [].
      * intros (a & b & H & H1 & H2). destruct a as [|z a]; cbn in H; injection H as -> H; [reflexivity|]. rewrite (H2 z) in E by now left. discriminate.
    + rewrite IH. split.
      * intros (a & b & -> & H1 & H2). exists (y :: a), b. split; [reflexivity|]. split; [exact H1|]. intros z [<-|HI]; auto.
      * intros (a & b & H & H1 & H2). destruct a as [|z a]; cbn in H; injection H as -> H; [congruence|]. exists a, b. split; [auto|]. split; [auto|]. intros z' HI. apply H2. now right.
Qed.
Lemma find_fit rs a b r : find (fun r => matches rs r a a b) rs = Some r -> FirstFit rs r a b.
Proof.
  intros H. apply find_spec in H. destruct H as (p & q & E & H1 & H2). exists p, q. split; [exact E|]. split; [now apply matches_spec|]. intros r' HI HF. apply matches_spec in HF. rewrite (H2 r' HI) in HF. discriminate.
Qed.
Lemma find_nofit rs a b : find (fun r => matches rs r a a b) rs = None -> NoRule rs a b.
Proof. intros H r HI HF. apply matches_spec in HF. rewrite (find_none _ _ H r HI) in HF. discriminate. Qed.

Lemma last_default {A : Type} (l : list A) : forall x d, last (x :: l) d = last (x :: l) x.
Proof. induction l as [|y l IH]; intros x d; [reflexivity|]. change (last (y :: l) d = last (y :: l) x). rewrite (IH y d), (IH y x). reflexivity. Qed.
(** * The inner loop *)
(** Consecutive legs of a ticket fit its rule, measured from its first leg. *)
Fixpoint fit_chain (rs : list transfer_rule) (r : transfer_rule) (from : fare_leg) (l : list fare_leg) : Prop :=
  match l with x :: t => match t with y :: _ => Fits rs r from x y | [] => True end /\ fit_chain rs r from t | [] => True end.
Definition int8_range (z : Z) : Prop := -128 <= z < 128.
Lemma dec8_mod c : dec8 c mod 256 = (c - 1) mod 256.
Proof. unfold dec8, to_int8. rewrite Zminus_mod, Zmod_mod, <- Zminus_mod. f_equal. lia. Qed.
Lemma extend_spec rs r from : forall rest it c m it' rest', int8_range c -> extend rs r from it rest c = (m, (it', rest')) ->
  rest = m ++ rest' /\ it' = last (it :: m) it /\ fit_chain rs r from (it :: m) /\ Z.of_nat (length m) <= c mod 256 /\
  match rest' with [] => True | y :: _ => ~ Fits rs r from it' y \/ Z.of_nat (length m) = c mod 256 end.
Proof.
  induction rest as [|nx t IH]; intros it c m it' rest' HC; cbn [extend].
  - intros [= <- <- <-]. cbn. split; [reflexivity|]. split; [reflexivity|]. split; [auto|]. split; [apply Z.mod_pos_bound; lia|exact I].
  - destruct (Z.eqb_spec c 0) as [-> | NC].
    + intros [= <- <- <-]. cbn. split; [reflexivity|]. split; [reflexivity|]. split; [auto|]. split; [lia|now right].
    + destruct (matches rs r from it nx) eqn:EM.
      * destruct (extend rs r from nx t (dec8 c)) as (m1 & (it1 & rest1)) eqn:EX. intros [= <- <- <-].
        destruct (IH nx (dec8 c) m1 it1 rest1) as (H1 & H2 & H3 & H4 & H5); [unfold int8_range, dec8, to_int8; assert (0 <= (c - 1 + 128) mod 256 < 256) by (apply Z.mod_pos_bound; lia); lia|exact EX|].
        assert (EQ : c mod 256 = dec8 c mod 256 + 1). { rewrite dec8_mod. unfold int8_range in HC. destruct (Z_le_gt_dec 0 c); [rewrite !Z.mod_small by lia; lia|].
          replace (c mod 256) with (c + 256) by (symmetry; rewrite <- (Z.mod_small (c + 256) 256) by lia; rewrite <- (Z_mod_plus_full c 1 256); f_equal; lia).
          replace ((c - 1) mod 256) with (c - 1 + 256); [lia|]. symmetry. rewrite <- (Z.mod_small (c - 1 + 256) 256) by lia. rewrite <- (Z_mod_plus_full (c - 1) 1 256). reflexivity. }
        split; [cbn; now f_equal|]. split; [rewrite H2; change (last (it :: nx :: m1) it) with (last (nx :: m1) it); symmetry; apply last_default|].
        split; [cbn [fit_chain]; split; [now apply matches_spec|exact H3]|]. cbn [length]. rewrite EQ. split; [lia|].
        destruct rest1 as [|y rest1]; [exact I|]. destruct H5 as [H5|H5]; [now left|right; lia].
      * intros [= <- <- <-]. split; [reflexivity|]. split; [reflexivity|]. split; [cbn; auto|]. cbn [length]. split; [apply Z.mod_pos_bound; lia|]. left. intros HF. apply matches_spec in HF. congruence.
Qed.

(** * The tickets of one feed *)
(** [Bill rs new legs out]: [out] are the tickets for [legs]; [new] = false: the first leg is already on a ticket. *)
Inductive Bill (rs : list transfer_rule) : bool -> list fare_leg -> list ticket -> Prop :=
| bill_end x : Bill rs false [x] []
| bill_last x : Bill rs true [x] [(None, [x])]
| bill_single new x y t out : NoRule rs x y -> Bill rs true (y :: t) out -> Bill rs new (x :: y :: t) ((None, [x]) :: out)
| bill_rule new r x y m z t out : FirstFit rs r x y -> fit_chain rs r x (x :: y :: m) ->
    Z.of_nat (S (length m)) <= tr_count r mod 256 ->
    (match t with [] => True | w :: _ => ~ Fits rs r x z w \/ Z.of_nat (S (length m)) = tr_count r mod 256 end) ->
    z = last (y :: m) y -> Bill rs false (z :: t) out ->
    Bill rs new (x :: y :: m ++ t) ((Some r, x :: y :: m) :: out).
(** A rule whose stored count is 0 keeps the outer loop at the same leg. *)
Lemma walk_zero rs it nx t r : find (fun r => matches rs r it it nx) rs = Some r -> tr_count r = 0 ->
  forall fuel l, walk rs fuel it (nx :: t) l = None.
Proof.
  intros HF HC. induction fuel as [|n IH]; intros l; cbn [walk]; [reflexivity|]. rewrite HF. cbn [extend]. rewrite HC. cbn [Z.eqb]. rewrite IH. reflexivity.
Qed.
Lemma walk_bill rs : (forall r, In r rs -> int8_range (tr_count r)) ->
  forall fuel it rest l out, walk rs fuel it rest l = Some out -> Bill rs (negb l) (it :: rest) out.
Proof.
  intros HR. induction fuel as [|n IH]; intros it rest l out; cbn [walk]; [discriminate|].
  destruct rest as [|nx t]; [destruct l; intros [= <-]; constructor|].
  destruct (find (fun r => matches rs r it it nx) rs) as [r|] eqn:EF.
  - destruct (extend rs r it it (nx :: t) (tr_count r)) as (m & (it' & rest')) eqn:EX. destruct (walk rs n it' rest' true) as [o|] eqn:EW; [|discriminate]. intros [= <-].
    pose proof EW as EW0. apply IH in EW. cbn [negb] in EW. apply find_some in EF as EF2. destruct EF2 as (HI & HM). pose proof (find_fit _ _ _ _ EF) as HF.
    destruct (extend_spec rs r it (nx :: t) it (tr_count r) m it' rest' (HR r HI) EX) as (H1 & H2 & H3 & H4 & H5).
    destruct m as [|y m].
    + (* only for a rule with count 0, see below: then [extend] adds nothing *)
      cbn [app] in H1. subst rest'. cbn in H2. subst it'. destruct H5 as [H5|H5]; [exfalso; apply H5; now apply matches_spec|].
      exfalso. cbn in H5. specialize (HR r HI). cbn [extend] in EX. destruct (Z.eqb_spec (tr_count r) 0) as [E0|N0].
      * rewrite (walk_zero rs it nx t r EF E0) in EW0. discriminate.
      * rewrite HM in EX. destruct (extend rs r it nx t (dec8 (tr_count r))) as (? & (? & ?)). discriminate.
    + cbn [app] in H1. injection H1 as <- ->. apply bill_rule with (z := it'); [exact HF|exact H3|exact H4|exact H5| |exact EW].
      rewrite H2. change (last (it :: nx :: m) it) with (last (nx :: m) it). apply last_default.
  - destruct (walk rs n nx t false) as [o|] eqn:EW; [|discriminate]. intros [= <-]. apply IH in EW. constructor; [now apply find_nofit|exact EW].
Qed.

(** * What the tickets of a journey look like *)
Definition dfl : fare_leg := {| fl_src := O; fl_legs := []; fl_rules := [] |}.
Definition tsrc (ls : list fare_leg) : nat := fl_src (hd dfl ls).
(** A ticket over [ls], with [after] the legs of the journey that follow:
    without a rule: one leg, and no rule fits it and the next leg of the same feed;
    with rule [r]: at least two legs; [r] is the first rule that fits the first two; it fits all consecutive legs, with the
    duration measured from the first leg; at most as many transfers as it allows (a stored count of -1 allows 255); and
    the ticket ends only where the rule stops fitting or its transfers are used up. *)
Definition TicketOk (rs : list transfer_rule) (src : nat) (o : option transfer_rule) (ls after : list fare_leg) : Prop :=
  match o with
  | None => exists x, ls = [x] /\ match after with y :: _ => fl_src y = src -> NoRule rs x y | [] => True end
  | Some r => exists x y m, ls = x :: y :: m /\ FirstFit rs r x y /\
      (forall p a b q, ls = p ++ a :: b :: q -> Fits rs r x a b) /\
      Z.of_nat (length ls - 1) <= tr_count r mod 256 /\
      match after with
      | w :: _ => fl_src w = src -> ~ Fits rs r x (last ls dfl) w \/ Z.of_nat (length ls - 1) = tr_count r mod 256
      | [] => True
      end
  end.
(** The legs of the tickets in order, without the leg that a ticket shares with a preceding rule ticket of the feed. *)
Fixpoint billed (prev : option nat) (out : list ticket) : list fare_leg :=
  match out with
  | [] => []
  | (o, ls) :: t =>
      (match prev with Some k => if Nat.eqb k (tsrc ls) then tl ls else ls | None => ls end) ++
      billed (match o with Some _ => Some (tsrc ls) | None => None end) t
  end.
(** A ticket after a rule ticket of the same feed starts with that ticket's last leg. *)
Fixpoint restarts (out : list ticket) : Prop :=
  match out with
  | (o, ls) :: t =>
      match t with (_, ls2) :: _ => o <> None -> tsrc ls2 = tsrc ls -> hd dfl ls2 = last ls dfl | [] => True end /\ restarts t
  | [] => True
  end.
Lemma fit_chain_pairs rs r from ls p a b q : fit_chain rs r from ls -> ls = p ++ a :: b :: q -> Fits rs r from a b.
Proof. intros H ->. induction p as [|x p IH]; cbn in H; [tauto|]. apply IH. tauto. Qed.
Section OneFeed.
  Variables (rs : list transfer_rule) (k : nat).
  Lemma bill_tickets new legs out : Bill rs new legs out -> (forall x, In x legs -> fl_src x = k) ->
    forall rest o ls, match rest with [] => True | w :: _ => fl_src w <> k end -> In (o, ls) out ->
    exists p s, legs ++ rest = p ++ ls ++ s /\ (forall x, In x ls -> fl_src x = k) /\ TicketOk rs k o ls s.
  Proof.
    induction 1 as [x|x|new x y t out HN HB IH|new r x y m z t out HF HC HL HM HZ HB IH]; intros HS rest o ls HR HI.
    - destruct HI.
    - destruct HI as [[= <- <-]|[]]. exists [], rest. split; [reflexivity|]. split; [exact HS|]. exists x. split; [reflexivity|]. destruct rest; [exact I|]. intros E. contradiction.
    - destruct HI as [[= <- <-]|HI].
      + exists [], (y :: t ++ rest). split; [reflexivity|]. split; [intros z [<-|[]]; apply HS; now left|]. exists x. split; [reflexivity|]. auto.
      + destruct (IH (fun z Hz => HS z (or_intror Hz)) rest o ls HR HI) as (p & s & E & H2 & H3). exists (x :: p), s. split; [cbn in *; now f_equal|]. auto.
    - destruct HI as [[= <- <-]|HI].
      + exists [], (t ++ rest). split; [cbn; now rewrite <- app_assoc|]. split; [intros w Hw; apply HS; change (x :: y :: m ++ t) with ((x :: y :: m) ++ t); apply in_or_app; now left|].
        exists x, y, m. split; [reflexivity|]. split; [exact HF|]. split; [intros p a b q E; eapply fit_chain_pairs; [exact HC|exact E]|]. cbn [length]. replace (S (S (length m)) - 1)%nat with (S (length m)) by lia. split; [exact HL|].
        destruct t as [|w t]; cbn [app]; [destruct rest; [exact I|intros E; contradiction]|]. intros _.
        replace (last (x :: y :: m) dfl) with z; [exact HM|]. rewrite HZ. change (last (x :: y :: m) dfl) with (last (y :: m) dfl). symmetry. apply last_default.
      + assert (HS2 : forall w, In w (z :: t) -> fl_src w = k).
        { intros w [<-|Hw]; [|apply HS; right; right; apply in_or_app; now right]. apply HS. right. change (In z ((y :: m) ++ t)). apply in_or_app. left. rewrite HZ.
          destruct (@exists_last _ (y :: m)) as (q & u & EQ); [discriminate|]. rewrite EQ, last_last. apply in_or_app. right. now left. }
        destruct (IH HS2 rest o ls HR HI) as (p & s & E & H2 & H3).
        destruct (@exists_last _ (y :: m)) as (q & u & EQ); [discriminate|]. assert (EU : u = z) by (rewrite HZ, EQ, last_last; reflexivity). subst u.
        exists (x :: q ++ p), s. split; [|auto]. cbn [app]. f_equal. change (y :: (m ++ t) ++ rest) with (((y :: m) ++ t) ++ rest). rewrite EQ, <- !app_assoc. f_equal. exact E.
  Qed.
  Lemma bill_first new legs out : Bill rs new legs out -> match out with (_, ls) :: _ => hd dfl ls = hd dfl legs | [] => new = false end.
  Proof. intros H. destruct H; reflexivity. Qed.
  Lemma bill_srcs new legs out : Bill rs new legs out -> (forall x, In x legs -> fl_src x = k) -> Forall (fun t => tsrc (snd t) = k) out.
  Proof.
    intros HB HS. apply Forall_forall. intros (o, ls) HI. destruct (bill_tickets _ _ _ HB HS [] o ls I HI) as (p & s & _ & H & HT). cbn. apply H. destruct o; cbn in HT.
    - destruct HT as (x & y & m & -> & _). now left.
    - destruct HT as (x & -> & _). now left.
  Qed.
  Lemma bill_billed new legs out : Bill rs new legs out -> (forall x, In x legs -> fl_src x = k) ->
    billed (if new then None else Some k) out = if new then legs else tl legs.
  Proof.
    induction 1 as [x|x|new x y t out HN HB IH|new r x y m z t out HF HC HL HM HZ HB IH]; intros HS; cbn [billed].
    - reflexivity.
    - reflexivity.
    - assert (HK : tsrc [x] = k) by (apply HS; now left). rewrite HK, (IH (fun z Hz => HS z (or_intror Hz))). destruct new; [reflexivity|]. now rewrite Nat.eqb_refl.
    - assert (HK : tsrc (x :: y :: m) = k) by (apply HS; now left). rewrite HK. rewrite IH.
      + destruct new; [reflexivity|]. now rewrite Nat.eqb_refl.
      + intros w [<-|Hw]; [|apply HS; right; right; apply in_or_app; now right]. apply HS. right. change (In z ((y :: m) ++ t)). apply in_or_app. left. rewrite HZ.
        destruct (@exists_last _ (y :: m)) as (q & u & EQ); [discriminate|]. rewrite EQ, last_last. apply in_or_app. right. now left.
  Qed.
  Lemma bill_restarts new legs out : Bill rs new legs out -> restarts out.
  Proof.
    induction 1 as [x|x|new x y t out HN HB IH|new r x y m z t out HF HC HL HM HZ HB IH]; cbn [restarts]; auto.
    - split; [|exact IH]. destruct out as [|(o2, ls2) out]; [exact I|]. intros H. congruence.
    - split; [|exact IH]. pose proof (bill_first _ _ _ HB) as H1. destruct out as [|(o2, ls2) out]; [exact I|]. intros _ _. rewrite H1. cbn [hd]. rewrite HZ.
      change (last (x :: y :: m) dfl) with (last (y :: m) dfl). symmetry. apply last_default.
  Qed.
End OneFeed.

(** * All feeds *)
Lemma billed_app k o2 : match o2 with (_, ls) :: _ => tsrc ls <> k | [] => True end -> forall o1 prev, (prev = None \/ prev = Some k) ->
  Forall (fun t => tsrc (snd t) = k) o1 -> billed prev (o1 ++ o2) = billed prev o1 ++ billed None o2.
Proof.
  intros H2. induction o1 as [|(o, ls) o1 IH]; intros prev HP HF; cbn [app billed].
  - destruct HP as [-> | ->]; [reflexivity|]. destruct o2 as [|(o, ls) o2]; [reflexivity|]. cbn [billed]. destruct (Nat.eqb_spec k (tsrc ls)); [congruence|reflexivity].
  - pose proof (Forall_inv HF) as HK. pose proof (Forall_inv_tail HF) as HF2. cbn in HK. rewrite IH, app_assoc; auto. rewrite HK. destruct o; auto.
Qed.
Lemma restarts_app k o2 : match o2 with (_, ls) :: _ => tsrc ls <> k | [] => True end -> restarts o2 -> forall o1,
  Forall (fun t => tsrc (snd t) = k) o1 -> restarts o1 -> restarts (o1 ++ o2).
Proof.
  intros H2 HR2. induction o1 as [|(o, ls) o1 IH]; intros HF HR; cbn [app]; [exact HR2|]. pose proof (Forall_inv HF) as HK. pose proof (Forall_inv_tail HF) as HF2. cbn in HK. destruct HR as (HR & HR3). cbn [restarts]. split; [|auto].
  destruct o1 as [|(o', ls') o1]; [|exact HR]. cbn [app]. destruct o2 as [|(o', ls') o2]; [exact I|]. intros _ E. congruence.
Qed.
Definition counts_int8 (tt : ftt) : Prop := forall src r, In r (rules_at tt src) -> int8_range (tr_count r).
Lemma range_bill tt x a out : counts_int8 tt -> range_tickets tt (x :: a) = Some out -> Bill (rules_at tt (fl_src x)) true (x :: a) out.
Proof.
  intros HC. unfold range_tickets. destruct a as [|y a]; [intros [= <-]; constructor|]. intros H. apply (walk_bill (rules_at tt (fl_src x)) (HC (fl_src x)) _ x (y :: a) false out H).
Qed.
Notation same := (fun a b : fare_leg => Nat.eqb (fl_src a) (fl_src b)).
Lemma tickets_spec tt : counts_int8 tt -> forall n fl out, (length fl <= n)%nat -> all_some (map (range_tickets tt) (ranges same n fl)) = Some out ->
  (forall o ls, In (o, ls) out -> exists p s, fl = p ++ ls ++ s /\ (forall x, In x ls -> fl_src x = tsrc ls) /\ TicketOk (rules_at tt (tsrc ls)) (tsrc ls) o ls s) /\
  billed None out = fl /\ restarts out /\
  match out with (_, ls) :: _ => match fl with x :: _ => tsrc ls = fl_src x | [] => False end | [] => fl = [] end.
Proof.
  intros HC. induction n as [|n IH]; intros [|x t] out HL.
  1, 3: (cbn; intros [= <-]; cbn; split; [intros ? ? []|auto]).
  { cbn in HL. lia. }
  cbn [ranges]. destruct (span (same x) t) as (a & b) eqn:ES. apply span_spec in ES. destruct ES as (-> & HF & HB). cbn [map all_some].
  destruct (range_tickets tt (x :: a)) as [o1|] eqn:E1; [|discriminate]. destruct (all_some (map (range_tickets tt) (ranges same n b))) as [o2|] eqn:E2; [|discriminate]. intros [= <-].
  cbn in HL. rewrite app_length in HL. destruct (IH b o2 ltac:(lia) E2) as (I1 & I2 & I3 & I4). apply (range_bill tt x a o1 HC) in E1. set (k := fl_src x) in *.
  assert (HK : forall y, In y (x :: a) -> fl_src y = k). { intros y [<-|HI]; [reflexivity|]. rewrite Forall_forall in HF. specialize (HF y HI). cbn in HF. apply Nat.eqb_eq in HF. now symmetry. }
  assert (HBK : match b with [] => True | w :: _ => fl_src w <> k end). { destruct b as [|w b]; [exact I|]. cbn in HB. apply Nat.eqb_neq in HB. intros E. apply HB. now symmetry. }
  assert (HOK : match o2 with (_, ls) :: _ => tsrc ls <> k | [] => True end). { destruct o2 as [|(o, ls) o2]; [exact I|]. destruct b as [|w b]; [contradiction|]. now rewrite I4. }
  split; [|split; [|split]].
  - intros o ls HI. apply in_app_or in HI. destruct HI as [HI|HI].
    + destruct (bill_tickets _ k _ _ _ E1 HK b o ls HBK HI) as (p & s & E & H2 & H3). assert (HT : tsrc ls = k). { apply H2. destruct o; cbn in H3; [destruct H3 as (? & ? & ? & -> & _)|destruct H3 as (? & -> & _)]; now left. }
      rewrite HT. exists p, s. split; [exact E|]. auto.
    + destruct (I1 o ls HI) as (p & s & E & H2 & H3). exists (x :: a ++ p), s. split; [|auto]. cbn. rewrite E, <- app_assoc. reflexivity.
  - rewrite (billed_app k); auto; [|eapply bill_srcs; eauto]. pose proof (bill_billed _ k _ _ _ E1 HK) as H. cbn in H. rewrite H, I2. reflexivity.
  - apply (restarts_app k); auto; [eapply bill_srcs; eauto|eapply bill_restarts; eauto].
  - pose proof (bill_first _ _ _ _ E1) as H. destruct o1 as [|(o, ls) o1]; [discriminate|]. cbn. unfold tsrc. rewrite H. reflexivity.
Qed.

(** Every ticket covers consecutive legs of one feed and follows the transfer rules. *)
Theorem C70_tickets tt fl out o ls : counts_int8 tt -> join_transfers tt fl = Some out -> In (o, ls) out ->
  exists before after, fl = before ++ ls ++ after /\ (forall x, In x ls -> fl_src x = tsrc ls) /\ TicketOk (rules_at tt (tsrc ls)) (tsrc ls) o ls after.
Proof. intros HC H HI. destruct (tickets_spec tt HC (length fl) fl out (le_n _) H) as (H1 & _). eauto. Qed.
(** The tickets go through the journey in order and leave no leg out; a leg is on two tickets only if it is the last one
    of a ticket with a rule and the first one of the next ticket of the same feed. *)
Theorem C70_order tt fl out : counts_int8 tt -> join_transfers tt fl = Some out -> billed None out = fl /\ restarts out.
Proof. intros HC H. destruct (tickets_spec tt HC (length fl) fl out (le_n _) H) as (_ & H1 & H2 & _). auto. Qed.
Corollary C70_all_billed tt fl out x : counts_int8 tt -> join_transfers tt fl = Some out -> In x fl -> exists o ls, In (o, ls) out /\ In x ls.
Proof.
  intros HC H HI. destruct (C70_order tt fl out HC H) as (HB & _). rewrite <- HB in HI. clear -HI. revert HI. generalize (@None nat). induction out as [|(o, ls) out IH]; intros prev HI; cbn in HI; [contradiction|].
  apply in_app_or in HI. destruct HI as [HI|HI].
  - exists o, ls. split; [now left|]. destruct prev as [k|]; [|exact HI]. destruct (Nat.eqb k (tsrc ls)); [|exact HI]. destruct ls; [contradiction|now right].
  - destruct (IH _ HI) as (o' & ls' & H1 & H2). exists o', ls'. split; [now right|exact H2].
Qed.
(** Billed once: if no ticket with a rule is followed by another ticket of its feed, the tickets partition the legs. *)
Corollary C70_billed_once tt fl out : counts_int8 tt -> join_transfers tt fl = Some out ->
  (forall p r ls o2 ls2 q, out = p ++ (Some r, ls) :: (o2, ls2) :: q -> tsrc ls2 <> tsrc ls) -> flat_map snd out = fl.
Proof.
  intros HC H HN. destruct (C70_order tt fl out HC H) as (HB & _). rewrite <- HB. clear -HN.
  assert (K : forall prev, (forall k o ls q, prev = Some k -> out = (o, ls) :: q -> tsrc ls <> k) -> flat_map snd out = billed prev out).
  { induction out as [|(o, ls) out IH]; intros prev HP; cbn; [reflexivity|]. rewrite <- IH.
    - f_equal. destruct prev as [k|]; [|reflexivity]. destruct (Nat.eqb_spec k (tsrc ls)) as [E|]; [|reflexivity]. exfalso. now apply (HP k o ls out).
    - intros p r ls' o2 ls2 q E. apply (HN ((o, ls) :: p) r ls' o2 ls2 q). now rewrite E.
    - intros k o2 ls2 q E E2. destruct o as [r|]; [|discriminate]. injection E as <-. subst out. now apply (HN [] r ls o2 ls2 q). }
  apply K. discriminate.
Qed.
(** The computation ends, unless a rule with a stored count of 0 fits. *)
Lemma walk_total rs : (forall r, In r rs -> tr_count r <> 0) -> forall n it rest l, (length rest < n)%nat -> exists out, walk rs n it rest l = Some out.
Proof.
  intros HR. induction n as [|n IH]; intros it rest l HL; [lia|]. cbn [walk]. destruct rest as [|nx t]; [eauto|]. cbn [length] in HL.
  destruct (find (fun r => matches rs r it it nx) rs) as [r|] eqn:EF.
  - apply find_some in EF. destruct EF as (HI & HM). cbn [extend]. destruct (Z.eqb_spec (tr_count r) 0) as [E|_]; [destruct (HR r HI E)|]. rewrite HM.
    destruct (extend rs r it nx t (dec8 (tr_count r))) as (m & (it' & rest')) eqn:EX.
    assert (HL2 : (length rest' <= length t)%nat).
    { clear -EX. revert nx t m it' rest' EX. generalize (dec8 (tr_count r)) as c. intros c nx t. revert c nx. induction t as [|y t IH]; intros c nx m it' rest'; cbn [extend]; [intros [= <- <- <-]; lia|].
      destruct (c =? 0); [intros [= <- <- <-]; cbn; lia|]. destruct (matches rs r it nx y); [|intros [= <- <- <-]; cbn; lia]. destruct (extend rs r it y t (dec8 c)) as (m1 & (it1 & rest1)) eqn:E. intros [= <- <- <-]. apply IH in E. cbn. lia. }
    destruct (IH it' rest' true ltac:(lia)) as (o & ->). cbn. eauto.
  - destruct (IH nx t false ltac:(lia)) as (o & ->). cbn. eauto.
Qed.
Theorem C70_total tt fl : (forall src r, In r (rules_at tt src) -> tr_count r <> 0) -> exists out, join_transfers tt fl = Some out.
Proof.
  intros HR. unfold join_transfers, equal_ranges. assert (K : forall rsn, exists out, all_some (map (range_tickets tt) rsn) = Some out); [|apply K].
  induction rsn as [|r rsn (o2 & IH)]; cbn [map all_some]; [eauto|]. assert (E : exists o, range_tickets tt r = Some o).
  { unfold range_tickets. destruct r as [|x [|y t]]; [eauto|eauto|]. apply walk_total; [apply HR|cbn; lia]. }
  destruct E as (o & ->). rewrite IH. cbn. eauto.
Qed.
(** From the journey: the fare legs are the effective legs of C69 with their rules, so the tickets of get_fares go
    through all transit legs of the journey in order. *)
Definition fare_legs (tt : ftt) (legs : list leg) : list fare_leg :=
  map (fun e => {| fl_src := fst (match_leg_rule tt e); fl_legs := e; fl_rules := snd (match_leg_rule tt e) |}) (join_legs tt legs).
Theorem C70_get_fares tt legs out : counts_int8 tt -> get_fares tt legs = Some out ->
  billed None out = fare_legs tt legs /\ flat_map fl_legs (billed None out) = legs /\ restarts out /\
  forall o ls, In (o, ls) out -> exists before after, fare_legs tt legs = before ++ ls ++ after /\
    (forall x, In x ls -> fl_src x = tsrc ls) /\ TicketOk (rules_at tt (tsrc ls)) (tsrc ls) o ls after.
Proof.
  intros HC H. assert (E : get_fares tt legs = join_transfers tt (fare_legs tt legs)).
  { unfold get_fares, fare_legs. f_equal. apply map_ext. intros e. destruct (match_leg_rule tt e). reflexivity. }
  rewrite E in H. destruct (C70_order tt _ _ HC H) as (H1 & H2). split; [exact H1|]. split; [|split; [exact H2|intros o ls HI; eapply C70_tickets; eauto]].
  rewrite H1. unfold fare_legs. rewrite <- (C69_legs_partition tt legs) at 2. induction (join_legs tt legs) as [|e es IH]; cbn; [reflexivity|]. now rewrite IH.
Qed.
(** * Stored counts *)
Lemma to_int8_range z : int8_range (to_int8 z).
Proof. unfold int8_range, to_int8. assert (0 <= (z + 128) mod 256 < 256) by (apply Z.mod_pos_bound; lia). lia. Qed.
Theorem C70_loaded_count fg tg c lim lt p r : load_transfer fg tg c lim lt p = Some r ->
  int8_range (tr_count r) /\ c <> Some 0 /\ (forall z, c = Some z -> int8_range z -> tr_count r = z) /\ (c = None -> tr_count r = -1).
Proof.
  unfold load_transfer. destruct c as [z|]; [destruct (Z.eqb_spec z 0); [discriminate|]|]; intros [= <-]; cbn [tr_count]; (split; [apply to_int8_range|]).
  - split; [congruence|]. split; [|discriminate]. intros z' [= <-] HR. unfold to_int8. unfold int8_range in HR. rewrite Z.mod_small by lia. lia.
  - split; [discriminate|]. split; [discriminate|]. reflexivity.
Qed.
(** * Examples *)
Definition xfl (i g : nat) (d a : Z) : fare_leg := {| fl_src := 0; fl_legs := [xl i 1 [1; 2]%nat d a]; fl_rules := [xr 0 None None None None g g] |}.
Definition xt (f t : option nat) (c : Z) : transfer_rule := {| tr_from := f; tr_to := t; tr_count := c; tr_limit := Some 90; tr_limit_type := CurrDepNextDep; tr_product := None |}.
Definition t_tt (rs : list transfer_rule) : ftt := x_tt
  {| fs_groups := []; fs_keys := []; fs_joins := []; fs_transfers := rs; fs_frames := []; fs_sets := fun _ => []; fs_cnets := []; fs_cfroms := []; fs_ctos := [];
     fs_rider := fun _ => None; fs_rider_default := fun _ => true; fs_amount := fun _ => 0; fs_name := Z.of_nat |}.
Definition show (out : option (list ticket)) := option_map (map (fun t : ticket => (match fst t with Some r => Some (tr_count r) | None => None end, map (fun x => l_id (hd dleg (fl_legs x))) (snd t)))) out.
(** Two transfers within 90 minutes between bus legs (group 1). *)
Example C70_example : show (join_transfers (t_tt [xt (Some 2%nat) (Some 2%nat) (-1); xt (Some 1%nat) (Some 1%nat) 2])
    [xfl 0 1 0 20; xfl 1 1 30 50; xfl 2 1 60 80; xfl 3 1 85 95; xfl 4 2 100 110; xfl 5 2 120 130])
  = Some [(Some 2, [0; 1; 2]%nat); (Some 2, [2; 3]%nat); (None, [3]%nat); (Some (-1), [4; 5]%nat)].
Proof. vm_compute. reflexivity. Qed.
Example C70_example_hyp : counts_int8 (t_tt [xt (Some 2%nat) (Some 2%nat) (-1); xt (Some 1%nat) (Some 1%nat) 2]).
Proof. intros src r H. cbn in H. destruct H as [<-|[<-|[]]]; split; cbn; lia. Qed.
(** A journey A, B, C where the only rule is for A -> B: leg B is covered by the ticket A+B and billed again alone. *)
Theorem C70_billed_once_refuted : exists tt fl out, counts_int8 tt /\ (forall src r, In r (rules_at tt src) -> tr_count r <> 0) /\
  join_transfers tt fl = Some out /\ exists r a b c, fl = [a; b; c] /\ out = [(Some r, [a; b]); (None, [b]); (None, [c])] /\ a <> b /\ b <> c /\ NoRule (rules_at tt 0) b c.
Proof.
  set (rs := [xt (Some 1%nat) (Some 2%nat) (-1)]%nat). set (fl := [xfl 0 1 0 20; xfl 1 2 30 50; xfl 2 3 60 80]).
  exists (t_tt rs), fl, [(Some (xt (Some 1%nat) (Some 2%nat) (-1)), [xfl 0 1 0 20; xfl 1 2 30 50]); (None, [xfl 1 2 30 50]); (None, [xfl 2 3 60 80])].
  split; [intros src r [<-|[]]; split; cbn; lia|]. split; [intros src r [<-|[]]; discriminate|]. split; [vm_compute; reflexivity|].
  exists (xt (Some 1%nat) (Some 2%nat) (-1)), (xfl 0 1 0 20), (xfl 1 2 30 50), (xfl 2 3 60 80). split; [reflexivity|]. split; [reflexivity|]. split; [discriminate|]. split; [discriminate|].
  intros r [<-|[]] (ra & rb & ta & tb & E1 & _ & HG & _). cbn in E1. injection E1 as <- _. cbn in HG. discriminate.
Qed.
(** transfer_count = 256 passes the check for 0 (loader/gtfs/fares.cc:513), is stored as int8_t 0, and the outer loop never
    leaves the pair of legs it fits: no amount of fuel gives a result. *)
Theorem C70_count_256_hangs : exists r, load_transfer (Some 1%nat) (Some 1%nat) (Some 256) None CurrDepNextArr None = Some r /\
  forall fuel l, walk [r] fuel (xfl 0 1 0 20) [xfl 1 1 30 50] l = None.
Proof.
  eexists. split; [reflexivity|]. intros fuel l. eapply walk_zero; [vm_compute; reflexivity|reflexivity].
Qed.
