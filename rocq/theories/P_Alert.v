(** C71: service alerts. *)
From Coq Require Import List ZArith Lia Bool Arith.
From Verif Require Import Base Time_Model Calendar_Model Query_Model Rt_Model Rt_Proofs P_Rt Alert_Model.
Import ListNotations.
Local Open Scope Z_scope.

(** * Specification *)
(** The stop of an entity fits the place asked for: an entity without stop fits a whole trip and, in stop times ([q_fuzzy]),
    every stop; one with a stop fits that stop, its children and their children. *)
Definition StopFits (parent : nat -> option nat) (q : query) (x : option nat) : Prop :=
  match x with
  | None => q_fuzzy q = true \/ q_loc q = None
  | Some s => exists l, q_loc q = Some l /\ (s = l \/ parent l = Some s \/ exists p, parent l = Some p /\ parent p = Some s)
  end.
(** What an entity informs about. *)
Definition Informs (parent : nat -> option nat) (q : query) (s : selector) : Prop :=
  match s with
  | SelTrip rt x => q_rt q = Some rt /\ StopFits parent q x
  | SelRoute src r d x => src = q_src q /\ r = q_route q /\ (d = None \/ d = Some (q_dir q)) /\ StopFits parent q x
  | SelAgency ag ty x => ag = q_agency q /\ (ty = None \/ ty = Some (q_type q)) /\ StopFits parent q x
  | SelType src ty x => src = q_src q /\ ty = q_type q /\ StopFits parent q x
  | SelStop x => StopFits parent q (Some x)
  end.
(** Entities that get_alerts does not look at although they inform about the place asked for: those with a route type
    only, and those of a station two levels above the stop without anything else. *)
Definition Overlooked (parent : nat -> option nat) (q : query) (s : selector) : Prop :=
  match s with
  | SelType _ _ _ => True
  | SelStop x => ~ exists l, q_loc q = Some l /\ (x = l \/ parent l = Some x)
  | _ => False
  end.
(** The stop of an entity: absent, or found. *)
Definition StopOf (e : entity) (x : option nat) : Prop :=
  (e_stop e = None /\ x = None) \/ exists s, e_stop e = Some (Some s) /\ x = Some s.
Definition DirOf (d : option Z) (x : option Z) : Prop := x = match d with Some v => if v mod 256 =? 255 then None else Some (v mod 256) | None => None end.
Definition TypeOf (t : option Z) (x : option Z) : Prop := x = match t with Some v => if v mod 65536 =? 65535 then None else Some (v mod 65536) | None => None end.
(** What an entity of feed [src] names in the real-time timetable [r]: the first of trip, route, agency, route type that it
    has, otherwise its stop; [r'] is the timetable afterwards: a trip without real-time twin gets one. *)
Inductive Names (tt : stt) (r : rtt) (src : nat) (e : entity) : rtt -> selector -> Prop :=
| N_twin f u i x : StopOf e x -> e_trip e = Some f -> f r = Some u -> r_rt u = Some i -> Names tt r src e r (SelTrip i x)
| N_new f u r' i x : StopOf e x -> e_trip e = Some f -> f r = Some u -> r_rt u = None ->
    add_rt_transport tt r src (r_t u) [] [] None = (r', i) -> Names tt r src e r' (SelTrip i x)
| N_route ro d x : StopOf e x -> e_trip e = None -> e_route e = Some (Some ro) -> DirOf (e_dir e) d -> Names tt r src e r (SelRoute src ro d x)
| N_agency ag ty x : StopOf e x -> e_trip e = None -> e_route e = None -> e_agency e = Some (Some ag) -> TypeOf (e_type e) ty ->
    Names tt r src e r (SelAgency ag ty x)
| N_type ty x : StopOf e x -> e_trip e = None -> e_route e = None -> e_agency e = None -> e_type e = Some ty -> 0 <= ty <= 1702 ->
    Names tt r src e r (SelType src ty x)
| N_stop s : StopOf e (Some s) -> e_trip e = None -> e_route e = None -> e_agency e = None -> e_type e = None -> Names tt r src e r (SelStop s).
(** The entities of an alert, in order; those that name nothing are left out and leave the timetable as it is. *)
Inductive NamesAll (tt : stt) (src : nat) : rtt -> list entity -> rtt -> list selector -> Prop :=
| NA_nil r : NamesAll tt src r [] r []
| NA_some r e r1 s es r2 ss : Names tt r src e r1 s -> NamesAll tt src r1 es r2 ss -> NamesAll tt src r (e :: es) r2 (s :: ss)
| NA_none r e es r2 ss : (forall r1 s, ~ Names tt r src e r1 s) -> NamesAll tt src r es r2 ss -> NamesAll tt src r (e :: es) r2 ss.
(** The alerts of a history that name something, with what they name. *)
Inductive Kept (tt : stt) : rtt -> list (nat * alert) -> rtt -> list (alert * list selector) -> Prop :=
| K_nil r : Kept tt r [] r []
| K_none r src a r1 t r2 l : NamesAll tt src r (al_entities a) r1 [] -> Kept tt r1 t r2 l -> Kept tt r ((src, a) :: t) r2 l
| K_some r src a r1 s ss t r2 l : NamesAll tt src r (al_entities a) r1 (s :: ss) -> Kept tt r1 t r2 l ->
    Kept tt r ((src, a) :: t) r2 ((a, s :: ss) :: l).
(** Periods of an alert: its own, or the active ones. *)
Definition comm_of (a : alert) : list (Z * Z) := match al_comm a with [] => al_active a | c => c end.
Definition impact_of (a : alert) : list (Z * Z) := match al_impact a with [] => al_active a | c => c end.

(** * Proofs *)
Lemma oeq_spec a b : oeq a b = true <-> a = b.
Proof. destruct a, b; cbn; try rewrite Nat.eqb_eq; split; congruence. Qed.
Lemma opt_is_spec a v : opt_is a v = true <-> a = None \/ a = Some v.
Proof. destruct a as [x|]; cbn; [rewrite Z.eqb_eq; split; [intros ->; auto|intros [H|H]; congruence]|split; auto]. Qed.
Lemma matches_location_spec parent q x : matches_location parent q x = true <-> StopFits parent q x.
Proof.
  unfold matches_location, StopFits. rewrite !orb_true_iff. destruct (q_loc q) as [l|] eqn:EL.
  - destruct (parent l) as [p|] eqn:EP; [destruct (parent p) as [g|] eqn:EG|]; destruct x as [s|], (q_fuzzy q); cbn; rewrite ?orb_true_iff, ?Nat.eqb_eq; split; intros H;
      repeat match goal with
      | H : _ \/ _ |- _ => destruct H
      | H : exists _, _ |- _ => destruct H
      | H : _ /\ _ |- _ => destruct H
      end; subst; try discriminate; auto; try (eexists; split; [reflexivity|]); try (match goal with H : Some _ = Some _ |- _ => injection H as <- end);
      rewrite ?EP in *; try congruence; auto; try (right; left; congruence); try (right; right; eexists; split; [reflexivity|congruence]);
      repeat match goal with H : Some _ = Some _ |- _ => injection H as <- end; rewrite ?EP in *; try congruence; repeat match goal with H : Some _ = Some _ |- _ => injection H as <- end; rewrite ?EG in *; try congruence; repeat match goal with H : Some _ = Some _ |- _ => injection H as <- end; auto.
  - destruct x as [s|], (q_fuzzy q); cbn; split; intros H; repeat match goal with
      | H : _ \/ _ |- _ => destruct H
      | H : exists _, _ |- _ => destruct H
      | H : _ /\ _ |- _ => destruct H
      end; try discriminate; auto.
Qed.

(** ** Lookups *)
Lemma stop_of_unique e x y : StopOf e x -> StopOf e y -> x = y.
Proof. intros [(A & ->)|(s & A & ->)] [(B & ->)|(s' & B & ->)]; congruence. Qed.
Lemma resolve_entity_spec tt r src e r' s : resolve_entity tt r src e = (r', Some s) <-> Names tt r src e r' s.
Proof.
  split.
  - unfold resolve_entity. intros H.
    destruct (e_stop e) as [[st|]|] eqn:ES; [assert (X : StopOf e (Some st)) by (right; eauto)|discriminate|assert (X : StopOf e None) by (left; auto)];
      (destruct (e_trip e) as [f|] eqn:ET;
       [destruct (f r) as [u|] eqn:EF; [|discriminate]; destruct (r_rt u) as [i|] eqn:EU;
        [injection H as <- <-; eapply N_twin; eauto
        |destruct (add_rt_transport tt r src (r_t u) [] [] None) as [r1 i] eqn:EA; injection H as <- <-; eapply N_new; eauto]|]);
      (destruct (e_route e) as [[ro|]|] eqn:ER; [injection H as <- <-; apply N_route; auto; unfold DirOf; destruct (e_dir e); reflexivity|discriminate|]);
      (destruct (e_agency e) as [[ag|]|] eqn:EA; [injection H as <- <-; apply N_agency; auto; unfold TypeOf; destruct (e_type e); reflexivity|discriminate|]);
      (destruct (e_type e) as [ty|] eqn:EY;
       [destruct ((1702 <? ty) || (ty <? 0)) eqn:EO; [discriminate|]; injection H as <- <-; apply orb_false_iff in EO; destruct EO as [E1 E2];
        apply Z.ltb_ge in E1; apply Z.ltb_ge in E2; apply N_type; auto|]).
    + injection H as <- <-. apply N_stop; auto.
    + discriminate.
  - assert (ST : forall x, StopOf e x -> (e_stop e = None /\ x = None) \/ exists st, e_stop e = Some (Some st) /\ x = Some st) by auto.
    intros N. unfold resolve_entity.
    destruct N as [f u i x X ET EF EU|f u r' i x X ET EF EU EA|ro d x X ET ER ED|ag ty x X ET ER EG ED|ty x X ET ER EG EY L|st X ET ER EG EY];
      destruct (ST _ X) as [(E & EX)|(st' & E & EX)]; rewrite E, ET, ?ER, ?EG, ?EY, ?EF, ?EU, ?EA; subst; try reflexivity; try discriminate.
    1-2: now rewrite ED; destruct (e_dir e).
    1-2: now rewrite ED; destruct (e_type e).
    1-2: assert (EO : (1702 <? ty) || (ty <? 0) = false) by (apply orb_false_iff; split; apply Z.ltb_ge; lia); now rewrite EO.
    now injection EX as <-.
Qed.
Lemma resolve_entity_none tt r src e r' : resolve_entity tt r src e = (r', None) -> r' = r.
Proof.
  unfold resolve_entity. intros H.
  repeat match type of H with
  | (match ?x with _ => _ end) = _ => destruct x
  end; congruence.
Qed.
Lemma resolve_entities_spec tt src : forall es r r' ss, resolve_entities tt r src es = (r', ss) -> NamesAll tt src r es r' ss.
Proof.
  induction es as [|e t IH]; intros r r' ss H; cbn [resolve_entities] in H.
  - injection H as <- <-. constructor.
  - destruct (resolve_entity tt r src e) as [r1 o] eqn:E1. destruct (resolve_entities tt r1 src t) as [r2 ss2] eqn:E2. apply IH in E2. injection H as <- <-.
    destruct o as [s|].
    + apply resolve_entity_spec in E1. econstructor; eauto.
    + pose proof (resolve_entity_none _ _ _ _ _ E1) as ->. apply NA_none; [|exact E2]. intros r1' s N. apply resolve_entity_spec in N. congruence.
Qed.

(** ** Lists of the alerts *)
Definition stored (a : alerts) (s : selector) (i : nat) : Prop :=
  match s with
  | SelTrip rt x => In (x, i) (as_rt a rt)
  | SelRoute src r d x => In (d, x, i) (as_route a src r)
  | SelAgency ag ty x => In (ty, x, i) (as_agency a ag)
  | SelType _ _ _ => False
  | SelStop x => In i (as_loc a x)
  end.
Definition is_type (s : selector) : Prop := match s with SelType _ _ _ => True | _ => False end.
Lemma in_upd {A : Type} (f : nat -> list A) k v x y : In y (upd f k (f k ++ [v]) x) <-> In y (f x) \/ (x = k /\ y = v).
Proof.
  unfold upd. destruct (Nat.eqb_spec x k) as [->|N].
  - rewrite in_app_iff. cbn. split; [intros [H|[<-|[]]]; auto|intros [H|(_ & <-)]; auto].
  - split; [auto|]. intros [H|(E & _)]; [exact H|contradiction].
Qed.
Lemma push_stored a j s s' i : stored (push a j s) s' i <-> stored a s' i \/ (s' = s /\ i = j /\ ~ is_type s).
Proof.
  destruct s, s'; cbn [push stored as_rt as_route as_agency as_type as_loc is_type]; try (split; [auto|]; intros [H|(H & _)]; [exact H|discriminate]).
  - rewrite in_upd. split; intros [H|H]; auto; [destruct H as (-> & [= -> ->]); right; repeat split; auto|destruct H as ([= -> ->] & -> & _); right; auto].
  - unfold upd at 1. destruct (Nat.eqb_spec src0 src) as [->|N].
    + rewrite in_upd. split; intros [H|H]; auto; [destruct H as (-> & [= -> -> ->]); right; repeat split; auto|destruct H as ([= -> -> ->] & -> & _); right; auto].
    + split; [auto|]. intros [H|([= E] & _)]; [exact H|contradiction].
  - rewrite in_upd. split; intros [H|H]; auto; [destruct H as (-> & [= -> -> ->]); right; repeat split; auto|destruct H as ([= -> -> ->] & -> & _); right; auto].
  - split; [auto|]. intros [H|(_ & _ & H)]; [exact H|apply H; exact I].
  - rewrite in_upd. split; intros [H|H]; auto; [destruct H as (-> & ->); right; repeat split; auto|destruct H as ([= ->] & -> & _); right; auto].
Qed.
Lemma fold_stored j s' i : forall sels a, stored (fold_left (fun b s => push b j s) sels a) s' i <-> stored a s' i \/ (In s' sels /\ i = j /\ ~ is_type s').
Proof.
  induction sels as [|s t IH]; intros a; cbn [fold_left].
  - split; [auto|]. intros [H|([] & _)]. exact H.
  - rewrite IH, push_stored. cbn [In]. split.
    + intros [[H|(-> & -> & N)]|(HI & -> & N)]; auto.
    + intros [H|([<-|HI] & -> & N)]; auto.
Qed.
Lemma push_columns a j s : as_comm (push a j s) = as_comm a /\ as_impact (push a j s) = as_impact a /\ as_text (push a j s) = as_text a.
Proof. destruct s; repeat split. Qed.
Lemma fold_columns j : forall sels a, as_comm (fold_left (fun b s => push b j s) sels a) = as_comm a /\
  as_impact (fold_left (fun b s => push b j s) sels a) = as_impact a /\ as_text (fold_left (fun b s => push b j s) sels a) = as_text a.
Proof.
  induction sels as [|s t IH]; intros a; cbn [fold_left]; [auto|].
  destruct (IH (push a j s)) as (A & B & C). destruct (push_columns a j s) as (D & E & F). now rewrite A, B, C, D, E, F.
Qed.
(** The lists hold the first [n] alerts [l]. *)
Definition Holds (a : alerts) (l : list (alert * list selector)) : Prop :=
  as_comm a = map (fun e => comm_of (fst e)) l /\ as_impact a = map (fun e => impact_of (fst e)) l /\ as_text a = map (fun e => al_text (fst e)) l /\
  (forall s i, stored a s i <-> ~ is_type s /\ exists al sels, nth_error l i = Some (al, sels) /\ In s sels).
Lemma holds_nil : Holds no_alerts [].
Proof.
  split; [reflexivity|]. split; [reflexivity|]. split; [reflexivity|]. intros s i. split; [intros H; destruct s; contradiction|].
  intros (_ & al & sels & H & _). destruct i; discriminate.
Qed.
Lemma handle_alert_spec tt r a src al l : Holds a l ->
  exists r1 ss, NamesAll tt src r (al_entities al) r1 ss /\ fst (handle_alert tt (r, a) src al) = r1 /\
    Holds (snd (handle_alert tt (r, a) src al)) (match ss with [] => l | _ => l ++ [(al, ss)] end).
Proof.
  intros (HC & HI & HT & HS). unfold handle_alert. cbn [fst snd].
  destruct (resolve_entities tt r src (al_entities al)) as [r1 ss] eqn:E. exists r1, ss. split; [now apply resolve_entities_spec|].
  destruct ss as [|s0 ss0]; [split; [reflexivity|]; split; [exact HC|]; split; [exact HI|]; split; [exact HT|exact HS]|]. remember (s0 :: ss0) as ss. assert (EM : match ss with [] => l | _ => l ++ [(al, ss)] end = l ++ [(al, ss)]) by (subst; auto).
  assert (HL : length (as_comm a) = length l) by (rewrite HC; apply map_length).
  split; [now subst ss|].
  match goal with |- Holds ?x _ => replace x with (snd (r1, let b := fold_left (fun b s => push b (length (as_comm a)) s) ss a in
   {| as_rt := as_rt b; as_route := as_route b; as_agency := as_agency b; as_type := as_type b; as_loc := as_loc b;
             as_comm := as_comm b ++ [comm_of al]; as_impact := as_impact b ++ [impact_of al]; as_text := as_text b ++ [al_text al] |})) by (subst ss; reflexivity) end.
  cbn [snd]. cbv zeta. try rewrite EM. rewrite HL. set (b := fold_left _ ss a). destruct (fold_columns (length l) ss a) as (A & B & C). fold b in A, B, C.
  split; [|split; [|split]]; cbn [as_comm as_impact as_text].
  - rewrite A, HC, map_app. reflexivity.
  - rewrite B, HI, map_app. reflexivity.
  - rewrite C, HT, map_app. reflexivity.
  - intros s i. assert (X : stored b s i <-> stored a s i \/ (In s ss /\ i = length l /\ ~ is_type s)) by apply fold_stored.
    assert (Y : stored {| as_rt := as_rt b; as_route := as_route b; as_agency := as_agency b; as_type := as_type b; as_loc := as_loc b;
      as_comm := as_comm b ++ [comm_of al]; as_impact := as_impact b ++ [impact_of al]; as_text := as_text b ++ [al_text al] |} s i <-> stored b s i) by (destruct s; reflexivity).
    rewrite Y, X, HS. split.
    + intros [(N & al' & sels & H1 & H2)|(H1 & -> & N)].
      * split; [exact N|]. exists al', sels. split; [|exact H2]. rewrite nth_error_app1; [exact H1|]. apply nth_error_Some. congruence.
      * split; [exact N|]. exists al, ss. split; [|exact H1]. rewrite nth_error_app2, Nat.sub_diag by lia. reflexivity.
    + intros (N & al' & sels & H1 & H2). destruct (Nat.lt_ge_cases i (length l)) as [L|L].
      * left. split; [exact N|]. exists al', sels. rewrite nth_error_app1 in H1 by exact L. auto.
      * right. rewrite nth_error_app2 in H1 by exact L. destruct (i - length l)%nat as [|k] eqn:EK; [|destruct k; discriminate].
        cbn in H1. injection H1 as <- <-. repeat split; auto. lia.
Qed.
Lemma handle_alerts_spec tt : forall h r a l0, Holds a l0 ->
  exists l, Kept tt r h (fst (handle_alerts tt (r, a) h)) l /\ Holds (snd (handle_alerts tt (r, a) h)) (l0 ++ l).
Proof.
  unfold handle_alerts. induction h as [|(src, al) t IH]; intros r a l0 H; cbn [fold_left].
  - exists []. rewrite app_nil_r. split; [constructor|exact H].
  - cbn [fst snd]. destruct (handle_alert_spec tt r a src al l0 H) as (r1 & ss & N & ER & HH).
    destruct (handle_alert tt (r, a) src al) as [r1' a'] eqn:EH. cbn [fst snd] in ER, HH. subst r1'.
    destruct ss as [|s ss].
    + destruct (IH r1 a' _ HH) as (l & K & HK). exists l. split; [eapply K_none; eauto|exact HK].
    + destruct (IH r1 a' _ HH) as (l & K & HK). exists ((al, s :: ss) :: l). split; [eapply K_some; eauto|]. now rewrite <- app_assoc in HK.
Qed.
Lemma get_alerts_stored parent a q i : In i (get_alerts parent a q) <-> exists s, stored a s i /\ Informs parent q s /\ ~ Overlooked parent q s.
Proof.
  unfold get_alerts. rewrite !in_app_iff. split.
  - intros [H|[H|[H|H]]].
    + destruct (q_rt q) as [rt|] eqn:ER; [|contradiction]. apply in_map_iff in H. destruct H as ((x & j) & <- & H). apply filter_In in H. destruct H as (HI & HM).
      apply matches_location_spec in HM. exists (SelTrip rt x). cbn. repeat split; auto.
    + apply in_map_iff in H. destruct H as (((d & x) & j) & <- & H). apply filter_In in H. destruct H as (HI & HM). cbn [fst snd] in HM. apply andb_true_iff in HM. destruct HM as (HD & HM).
      apply matches_location_spec in HM. apply opt_is_spec in HD. exists (SelRoute (q_src q) (q_route q) d x). cbn. repeat split; auto.
    + apply in_map_iff in H. destruct H as (((d & x) & j) & <- & H). apply filter_In in H. destruct H as (HI & HM). cbn [fst snd] in HM. apply andb_true_iff in HM. destruct HM as (HD & HM).
      apply matches_location_spec in HM. apply opt_is_spec in HD. exists (SelAgency (q_agency q) d x). cbn. repeat split; auto.
    + destruct (q_loc q) as [l|] eqn:EL; [|contradiction]. apply in_app_iff in H. destruct H as [H|H].
      * exists (SelStop l). cbn. split; [exact H|]. split; [exists l; auto|]. intros X. apply X. exists l. auto.
      * destruct (parent l) as [p|] eqn:EP; [|contradiction]. exists (SelStop p). cbn. split; [exact H|]. split; [exists l; auto|]. intros X. apply X. exists l. auto.
  - intros (s & HS & HI & HO). destruct s as [rt x|src r d x|ag ty x|src ty x|x]; cbn in HS, HI, HO.
    + left. destruct HI as (-> & HI). apply in_map_iff. exists (x, i). split; [reflexivity|]. apply filter_In. split; [exact HS|]. now apply matches_location_spec.
    + right. left. destruct HI as (-> & -> & HD & HI). apply in_map_iff. exists (d, x, i). split; [reflexivity|]. apply filter_In. split; [exact HS|].
      cbn [fst snd]. apply andb_true_iff. split; [now apply opt_is_spec|now apply matches_location_spec].
    + right. right. left. destruct HI as (-> & HD & HI). apply in_map_iff. exists (ty, x, i). split; [reflexivity|]. apply filter_In. split; [exact HS|].
      cbn [fst snd]. apply andb_true_iff. split; [now apply opt_is_spec|now apply matches_location_spec].
    + contradiction.
    + right. right. right. destruct (q_loc q) as [l|] eqn:EL.
      * assert (D : x = l \/ parent l = Some x).
        { destruct HI as (l' & [= <-] & [E|[E|E]]); auto. destruct (Nat.eq_dec x l) as [|N]; [auto|]. destruct (parent l) as [p|] eqn:EP.
          - destruct (Nat.eq_dec p x) as [->|N2]; [auto|]. exfalso. apply HO. intros (l' & [= <-] & [F|F]); congruence.
          - destruct E as (p & E & _). discriminate. }
        apply in_app_iff. destruct D as [->|D]; [auto|]. rewrite D. auto.
      * destruct HI as (l & E & _). discriminate.
Qed.

(** After any history of alerts: an alert is returned for a place exactly if one of its entities informs about the place
    and is not one of the overlooked kinds; each returned index gives this alert's own periods and texts. *)
Theorem C71_alerts_of_a_place :
  forall (tt : stt) (r0 : rtt) (h : list (nat * alert)) (parent : nat -> option nat),
  exists l, Kept tt r0 h (fst (handle_alerts tt (r0, no_alerts) h)) l /\
    let a := snd (handle_alerts tt (r0, no_alerts) h) in
    (forall q i, In i (get_alerts parent a q) <->
       exists al sels s, nth_error l i = Some (al, sels) /\ In s sels /\ Informs parent q s /\ ~ Overlooked parent q s) /\
    (forall i, nth_error (as_comm a) i = option_map (fun e => comm_of (fst e)) (nth_error l i)) /\
    (forall i, nth_error (as_impact a) i = option_map (fun e => impact_of (fst e)) (nth_error l i)) /\
    (forall i, nth_error (as_text a) i = option_map (fun e => al_text (fst e)) (nth_error l i)).
Proof.
  intros tt r0 h parent. destruct (handle_alerts_spec tt h r0 no_alerts [] holds_nil) as (l & K & HC & HI & HT & HS). cbn [app] in HC, HI, HT, HS.
  exists l. split; [exact K|]. cbv zeta. rewrite HC, HI, HT. split; [|repeat split; intros; apply nth_error_map].
  intros q i. rewrite get_alerts_stored. split.
  - intros (s & H1 & H2 & H3). apply HS in H1. destruct H1 as (N & al & sels & H4 & H5). eauto 8.
  - intros (al & sels & s & H1 & H2 & H3 & H4). exists s. split; [|auto]. apply HS. split; [destruct s; cbn in *; auto|eauto].
Qed.

(** ** The twin made for an alert *)
Lemma copy_times_nth n : forall k sl dep arr j, (j < n)%nat -> (k + n < sl)%nat ->
  nth (2 * j) (copy_times n k sl dep arr) 0 = dep (k + j)%nat /\ nth (2 * j + 1) (copy_times n k sl dep arr) 0 = arr (k + j + 1)%nat.
Proof.
  induction n as [|n IH]; intros k sl dep arr j L LS; [lia|]. cbn [copy_times]. destruct j as [|j].
  - cbn. rewrite Nat.add_0_r. split; [reflexivity|]. f_equal. lia.
  - replace (2 * S j)%nat with (S (S (2 * j))) by lia. replace (S (S (2 * j)) + 1)%nat with (S (S (2 * j + 1))) by lia. cbn [nth].
    destruct (Nat.leb_spec sl (S k + 1)) as [X|X]; [lia|].
    destruct (IH (S k) sl dep arr j) as (A & B); [lia|lia|]. rewrite A, B. split; f_equal; lia.
Qed.
(** A real-time vehicle runs as scheduled: the trip's stops, its times as far as 16 bit hold them, not cancelled. *)
Definition AsScheduled (tt : stt) (r : rtt) (i : nat) : Prop :=
  exists ti day, nth_error (rt_static r) i = Some (inl (ti, day)) /\ nth_error (rt_stops r) i = Some (s_seq tt ti) /\ nth_error (rt_cancelled r) i = Some false /\
  (forall k, (k + 1 < length (s_seq tt ti))%nat -> -32768 <= s_event tt ti day k false - rt_base r <= 32767 ->
     unix_event_time r i k false = s_event tt ti day k false) /\
  (forall k, (0 < k < length (s_seq tt ti))%nat -> -32768 <= s_event tt ti day k true - rt_base r <= 32767 ->
     unix_event_time r i k true = s_event tt ti day k true).
(** Scheduled vehicles run forward in time. *)
Definition forward (tt : stt) : Prop := forall ti day k,
  ((k + 1 < length (s_seq tt ti))%nat -> s_event tt ti day k false <= s_event tt ti day (S k) true) /\
  ((0 < k)%nat -> (k + 1 < length (s_seq tt ti))%nat -> s_event tt ti day k true <= s_event tt ti day k false).
(** The resolver of an entity knows the twins (gtfsrt_resolve_run.cc:32-55, C65). *)
Definition honest (e : entity) : Prop := forall f r u, e_trip e = Some f -> f r = Some u ->
  match r_t u with Some t => r_rt u = resolve_rt r t | None => r_rt u <> None end.
(** Feed entities: trip updates and alerts, in any order. *)
Inductive event := Ev_msg (m : msg) | Ev_alert (src : nat) (a : alert).
Definition run_event (tt : stt) (st : rtt * alerts) (e : event) : rtt * alerts :=
  match e with Ev_msg m => (apply_msg tt (fst st) m, snd st) | Ev_alert src a => handle_alert tt st src a end.
Definition run_events (tt : stt) (es : list event) (st : rtt * alerts) : rtt * alerts := fold_left (run_event tt) es st.
Definition honest_event (e : event) : Prop := match e with Ev_msg _ => True | Ev_alert _ a => Forall honest (al_entities a) end.

Definition state_inv (r : rtt) : Prop := rt_inv r /\ length (rt_cancelled r) = length (rt_static r).
(** [r'] is [r] with additional vehicles that run as scheduled. *)
Definition grows (tt : stt) (r r' : rtt) : Prop :=
  rt_base r' = rt_base r /\ (length (rt_static r) <= length (rt_static r'))%nat /\
  (forall j, (j < length (rt_static r))%nat -> nth_error (rt_static r') j = nth_error (rt_static r) j /\ nth_error (rt_times r') j = nth_error (rt_times r) j /\
     nth_error (rt_stops r') j = nth_error (rt_stops r) j /\ nth_error (rt_cancelled r') j = nth_error (rt_cancelled r) j) /\
  (forall j, (length (rt_static r) <= j < length (rt_static r'))%nat -> AsScheduled tt r' j).
Lemma grows_refl tt r : grows tt r r.
Proof. repeat split; auto; intros; lia. Qed.
Lemma unix_event_ext r r' j k b : rt_base r' = rt_base r -> nth_error (rt_times r') j = nth_error (rt_times r) j -> unix_event_time r' j k b = unix_event_time r j k b.
Proof.
  intros EB ET. unfold unix_event_time, Rt_Model.event_time. rewrite EB.
  assert (X : nth j (rt_times r') [] = nth j (rt_times r) []).
  { destruct (nth_error (rt_times r) j) as [l|] eqn:E.
    - rewrite (nth_error_nth _ _ _ E), (nth_error_nth _ _ _ ET). reflexivity.
    - apply nth_error_None in E. apply nth_error_None in ET. now rewrite !nth_overflow by lia. }
  now rewrite X.
Qed.
Lemma as_scheduled_ext tt r r' j : rt_base r' = rt_base r -> nth_error (rt_static r') j = nth_error (rt_static r) j -> nth_error (rt_times r') j = nth_error (rt_times r) j ->
  nth_error (rt_stops r') j = nth_error (rt_stops r) j -> nth_error (rt_cancelled r') j = nth_error (rt_cancelled r) j -> AsScheduled tt r j -> AsScheduled tt r' j.
Proof.
  intros EB E1 E2 E3 E4 (ti & day & A & B & C & D & F). exists ti, day. rewrite E1, E3, E4. split; [exact A|]. split; [exact B|]. split; [exact C|].
  split; intros k L R; rewrite (unix_event_ext r r'); auto; rewrite EB in R; auto.
Qed.
Lemma grows_trans tt a b c : grows tt a b -> grows tt b c -> grows tt a c.
Proof.
  intros (B1 & L1 & F1 & N1) (B2 & L2 & F2 & N2). split; [congruence|]. split; [lia|]. split.
  - intros j L. destruct (F1 j L) as (E1 & E2 & E3 & E4). destruct (F2 j) as (G1 & G2 & G3 & G4); [lia|]. repeat split; congruence.
  - intros j L. destruct (Nat.lt_ge_cases j (length (rt_static b))) as [X|X].
    + destruct (F2 j X) as (G1 & G2 & G3 & G4). apply (as_scheduled_ext tt b c); auto. apply N1. lia.
    + apply N2. lia.
Qed.
Lemma nth_of_error {A : Type} (l : list A) j d x : nth_error l j = Some x -> nth j l d = x.
Proof. intros E. now apply nth_error_nth. Qed.
Lemma nondecreasing_step (ts : list Z) : (forall j, (S j < length ts)%nat -> nth j ts 0 <= nth (S j) ts 0) -> nondecreasing ts.
Proof.
  intros H a b. induction b as [|b IH]; intros L; [replace a with O by lia; lia|].
  destruct (Nat.eq_dec a (S b)) as [->|N]; [lia|]. assert (nth a ts 0 <= nth b ts 0) by (apply IH; lia). specialize (H b). lia.
Qed.
Lemma clamp16_mono a b : a <= b -> clamp16 a <= clamp16 b.
Proof. unfold clamp16, i16_min, i16_max. lia. Qed.
Lemma scheduled_times_sorted tt r ti day : forward tt ->
  nondecreasing (copy_times (length (s_seq tt ti) - 1) 0 (length (s_seq tt ti)) (fun s => rt_unix_to_delta r (s_event tt ti day s false)) (fun s => rt_unix_to_delta r (s_event tt ti day s true))).
Proof.
  intros F. set (n := length (s_seq tt ti)). set (dep := fun s => _). set (arr := fun s => rt_unix_to_delta r (s_event tt ti day s true)).
  apply nondecreasing_step. intros j L. rewrite copy_times_length in L.
  pose proof (fun i Hi Hn => copy_times_nth (n - 1) 0 n dep arr i Hi Hn) as N.
  destruct (Nat.Even_or_Odd j) as [(i & ->)|(i & ->)].
  - destruct (N i) as (A & B); [lia|lia|]. replace (S (2 * i)) with (2 * i + 1)%nat by lia. rewrite A, B. unfold dep, arr, rt_unix_to_delta.
    apply clamp16_mono. destruct (F ti day i) as (X & _). replace (0 + i + 1)%nat with (S i) by lia. cbn [Nat.add]. fold n in X. specialize (X ltac:(lia)). lia.
  - destruct (N i) as (A & B); [lia|lia|]. destruct (N (S i)) as (C & D); [lia|lia|]. replace (S (2 * i + 1)) with (2 * S i)%nat by lia. rewrite B, C. unfold dep, arr, rt_unix_to_delta.
    apply clamp16_mono. destruct (F ti day (S i)) as (_ & X). replace (0 + i + 1)%nat with (S i) by lia. cbn [Nat.add]. fold n in X. specialize (X ltac:(lia) ltac:(lia)). lia.
Qed.
Lemma add_twin tt r src t : forward tt -> state_inv r -> resolve_rt r t = None ->
  let (r', i) := add_rt_transport tt r src (Some t) [] [] None in state_inv r' /\ grows tt r r' /\ i = length (rt_static r).
Proof.
  intros HF (HI & HC) HN. pose proof HI as HI0. destruct HI as [A B C D E].
  pose proof (add_frame tt r src (Some t) [] [] None A B) as F. pose proof (add_scheduled_len tt r src t A B) as G.
  pose proof (add_lookup_scheduled tt r src t HN E) as H.
  destruct (add_rt_transport tt r src (Some t) [] [] None) as [r1 i] eqn:EA. destruct F as (F1 & F2 & F3 & F4 & F5 & F6).
  unfold add_rt_transport in EA. destruct t as [ti day]. injection EA as EA1 EA2.
  set (dep := fun s => rt_unix_to_delta r (s_event tt ti day s false)) in EA1. set (arr := fun s => rt_unix_to_delta r (s_event tt ti day s true)) in EA1.
  assert (ET : rt_times r1 = rt_times r ++ [copy_times (length (s_seq tt ti) - 1) 0 (length (s_seq tt ti)) dep arr]) by (rewrite <- EA1; reflexivity).
  assert (ES : rt_stops r1 = rt_stops r ++ [s_seq tt ti]) by (rewrite <- EA1; reflexivity).
  assert (EC : rt_cancelled r1 = rt_cancelled r ++ [false]) by (rewrite <- EA1; reflexivity).
  assert (EX : rt_static r1 = rt_static r ++ [inl (ti, day)]) by (rewrite <- EA1; reflexivity).
  assert (EB : rt_base r1 = rt_base r) by exact F5. clear EA1.
  assert (TI : nth i (rt_times r1) [] = copy_times (length (s_seq tt ti) - 1) 0 (length (s_seq tt ti)) dep arr).
  { rewrite ET, app_nth2 by lia. replace (i - length (rt_times r))%nat with O by lia. reflexivity. }
  split; [|split; [|now symmetry]].
  - split; [|rewrite EC, EX, !app_length; cbn [length]; lia]. constructor; try lia; auto.
    + intros j. destruct (Nat.lt_trichotomy j i) as [Hj|[->|Hj]].
      * destruct (F6 j Hj) as [-> ->]. apply C.
      * exact G.
      * rewrite !nth_overflow by lia. reflexivity.
    + intros j. destruct (Nat.lt_trichotomy j i) as [Hj|[->|Hj]].
      * destruct (F6 j Hj) as [-> _]. apply D.
      * rewrite TI. now apply scheduled_times_sorted.
      * rewrite nth_overflow by lia. apply nondecreasing_nil.
  - split; [exact EB|]. split; [lia|]. split.
    + intros j L. rewrite EX, ET, ES, EC. rewrite !nth_error_app1 by lia. auto.
    + intros j L. assert (j = i) by lia. subst j. exists ti, day.
      split; [rewrite EX, nth_error_app2 by lia; replace (i - length (rt_static r))%nat with O by lia; reflexivity|].
      split; [rewrite ES, nth_error_app2 by lia; replace (i - length (rt_stops r))%nat with O by lia; reflexivity|].
      split; [rewrite EC, nth_error_app2 by lia; replace (i - length (rt_cancelled r))%nat with O by lia; reflexivity|].
      unfold unix_event_time, Rt_Model.event_time, ev_idx. rewrite TI, EB. split; intros k L2 R.
      * destruct (copy_times_nth (length (s_seq tt ti) - 1) 0 (length (s_seq tt ti)) dep arr k) as (X & _); [lia|lia|].
        replace (k * 2 - 0)%nat with (2 * k)%nat by lia. rewrite X. cbn [Nat.add]. unfold dep, rt_unix_to_delta, clamp16, i16_min, i16_max. lia.
      * destruct (copy_times_nth (length (s_seq tt ti) - 1) 0 (length (s_seq tt ti)) dep arr (k - 1)) as (_ & X); [lia|lia|].
        replace (k * 2 - 1)%nat with (2 * (k - 1) + 1)%nat by lia. rewrite X. replace (0 + (k - 1) + 1)%nat with k by lia. unfold arr, rt_unix_to_delta, clamp16, i16_min, i16_max. lia.
Qed.
Lemma names_grows tt src : forall es r r' ss, forward tt -> Forall honest es -> state_inv r -> NamesAll tt src r es r' ss -> state_inv r' /\ grows tt r r'.
Proof.
  intros es r r' ss HF HH HI N. revert HH HI. induction N as [r|r e r1 s es r2 ss N1 N2 IH|r e es r2 ss N1 N2 IH]; intros HH HI.
  - split; [exact HI|apply grows_refl].
  - inversion HH as [|? ? H1 H2]; subst.
    assert (X : state_inv r1 /\ grows tt r r1).
    { destruct N1 as [f u i x X ET EF EU|f u r' i x X ET EF EU EA| | | | ]; try (split; [exact HI|apply grows_refl]).
      specialize (H1 f r u ET EF). destruct (r_t u) as [t|]; [|contradiction]. rewrite EU in H1. symmetry in H1.
      pose proof (add_twin tt r src t HF HI H1) as T. rewrite EA in T. destruct T as (T1 & T2 & _). auto. }
    destruct X as (X1 & X2). destruct (IH H2 X1) as (Y1 & Y2). split; [exact Y1|eapply grows_trans; eauto].
  - inversion HH as [|? ? H1 H2]; subst. apply IH; auto.
Qed.
Lemma cancel_run_len tt r x : length (rt_cancelled (cancel_run tt r x)) = length (rt_cancelled r).
Proof. unfold cancel_run, disable_day, set_cancelled. destruct (r_rt x), (r_t x) as [[t d]|]; cbn [rt_cancelled]; rewrite ?set_nth_length; reflexivity. Qed.
Lemma update_run_len tt x i lseq r seqs us : length (rt_cancelled (update_run_rt tt x i lseq r seqs us)) = length (rt_cancelled r).
Proof.
  rewrite update_run_rt_unfold. cbv zeta. destruct (touch_before_cancel tt x i lseq r seqs us). destruct (_ <=? 1)%nat; [rewrite cancel_run_len|]; now rewrite tc_cancelled.
Qed.
Lemma apply_msg_state tt m r : state_inv r -> state_inv (apply_msg tt r m).
Proof.
  intros (HI & HC). split; [now apply apply_msg_inv|]. destruct HI as [A B _ _ _].
  destruct m as [src t from to seqs us|src lid tid stops us|src t from to]; cbn [apply_msg].
  - unfold update_scheduled. destruct (r_t (resolve_rt_run r (mk_run (Some t) from to None) 0 src)) as [t'|]; [|exact HC].
    destruct (r_rt (resolve_rt_run r (mk_run (Some t) from to None) 0 src)) as [i|].
    + rewrite update_run_len. match goal with |- _ = length (rt_static (update_run_rt ?a ?b ?c ?d ?e ?f ?g)) => destruct (update_run_rt_frame a b c d e f g) as (_ & _ & _ & _ & Y & _); rewrite Y end.
      cbn [set_cancelled rt_cancelled rt_static]. now rewrite set_nth_length.
    + pose proof (add_frame tt r src (Some t') [] [] None A B) as F.
      assert (X : length (rt_cancelled (fst (add_rt_transport tt r src (Some t') [] [] None))) = S (length (rt_cancelled r)))
        by (unfold add_rt_transport; destruct t'; cbn [fst rt_cancelled]; rewrite app_length; cbn [length]; unfold disable_day; cbn [rt_cancelled]; lia).
      destruct (add_rt_transport tt r src (Some t') [] [] None) as [r1 i]. cbn [fst] in X. rewrite update_run_len.
      match goal with |- _ = length (rt_static (update_run_rt ?a ?b ?c ?d ?e ?f ?g)) => destruct (update_run_rt_frame a b c d e f g) as (_ & _ & _ & _ & Y & _); rewrite Y end. lia.
  - unfold update_added. destruct (r_rt (resolve_rt_run r (mk_run None 0 0 None) lid src)) as [i|].
    + rewrite update_run_len. match goal with |- _ = length (rt_static (update_run_rt ?a ?b ?c ?d ?e ?f ?g)) => destruct (update_run_rt_frame a b c d e f g) as (_ & _ & _ & _ & Y & _); rewrite Y end.
      cbn [set_cancelled rt_cancelled rt_static]. now rewrite set_nth_length.
    + pose proof (add_frame tt r src None stops (repeat 0 (2 * length stops - 2)) (Some tid) A B) as F.
      assert (X : length (rt_cancelled (fst (add_rt_transport tt r src None stops (repeat 0 (2 * length stops - 2)) (Some tid)))) = S (length (rt_cancelled r)))
        by (unfold add_rt_transport; cbn [fst rt_cancelled]; rewrite app_length; cbn [length]; lia).
      destruct (add_rt_transport tt r src None stops (repeat 0 (2 * length stops - 2)) (Some tid)) as [r1 i]. cbn [fst] in X. rewrite update_run_len.
      match goal with |- _ = length (rt_static (update_run_rt ?a ?b ?c ?d ?e ?f ?g)) => destruct (update_run_rt_frame a b c d e f g) as (_ & _ & _ & _ & Y & _); rewrite Y end. lia.
  - rewrite cancel_run_len. destruct (cancel_run_frame tt r (resolve_rt_run r (mk_run (Some t) from to None) 0 src)) as (_ & _ & _ & _ & Y & _). now rewrite Y.
Qed.
Lemma create_state tt base : state_inv (create_rt_timetable tt base).
Proof. split; [apply create_inv|reflexivity]. Qed.
Lemma handle_alert_grows tt r a src al : forward tt -> Forall honest (al_entities al) -> state_inv r ->
  state_inv (fst (handle_alert tt (r, a) src al)) /\ grows tt r (fst (handle_alert tt (r, a) src al)).
Proof.
  intros HF HH HI. unfold handle_alert. cbn [fst snd]. destruct (resolve_entities tt r src (al_entities al)) as [r1 ss] eqn:E. apply resolve_entities_spec in E.
  destruct (names_grows tt src _ _ _ _ HF HH HI E). destruct ss; cbn [fst]; auto.
Qed.
Lemma run_events_state tt : forall es st, forward tt -> Forall honest_event es -> state_inv (fst st) -> state_inv (fst (run_events tt es st)).
Proof.
  unfold run_events. induction es as [|e t IH]; intros st HF HH HI; cbn [fold_left]; [exact HI|]. inversion HH as [|? ? H1 H2]; subst. apply IH; auto.
  destruct e as [m|src al]; cbn [run_event fst]; [now apply apply_msg_state|]. destruct st as [r a]. now apply handle_alert_grows.
Qed.
(** After any history of trip updates, cancellations and alerts: one more alert changes no existing vehicle and only adds
    vehicles that run as scheduled; all real-time vehicles run forward in time. *)
Theorem C71_alerts_change_no_vehicle :
  forall (tt : stt) (base : Z) (es : list event) (src : nat) (al : alert), forward tt -> Forall honest_event es -> Forall honest (al_entities al) ->
  let st := run_events tt es (create_rt_timetable tt base, no_alerts) in
  let r := fst st in
  let r' := fst (handle_alert tt st src al) in
  (forall j, (j < length (rt_static r))%nat -> nth_error (rt_static r') j = nth_error (rt_static r) j /\ nth_error (rt_times r') j = nth_error (rt_times r) j /\
     nth_error (rt_stops r') j = nth_error (rt_stops r) j /\ nth_error (rt_cancelled r') j = nth_error (rt_cancelled r) j) /\
  (forall j, (length (rt_static r) <= j < length (rt_static r'))%nat -> AsScheduled tt r' j) /\
  (forall j, nondecreasing (nth j (rt_times r') [])).
Proof.
  intros tt base es src al HF HH HA. cbv zeta. set (st := run_events _ _ _).
  assert (HI : state_inv (fst st)) by (apply run_events_state; auto; apply create_state).
  destruct st as [r a]. cbn [fst] in *. destruct (handle_alert_grows tt r a src al HF HA HI) as (I1 & _ & _ & G1 & G2).
  split; [exact G1|]. split; [exact G2|]. destruct I1 as (I1 & _). apply ri_sorted. exact I1.
Qed.

(** * Examples and refutations *)
Definition ent0 : entity := {| e_stop := None; e_trip := None; e_route := None; e_dir := None; e_agency := None; e_type := None |}.
Definition ent_stop (s : nat) : entity := {| e_stop := Some (Some s); e_trip := None; e_route := None; e_dir := None; e_agency := None; e_type := None |}.
Definition ent_type (t : Z) : entity := {| e_stop := None; e_trip := None; e_route := None; e_dir := None; e_agency := None; e_type := Some t |}.
Definition ent_route (r : nat) (d : Z) (s : option (option nat)) : entity := {| e_stop := s; e_trip := None; e_route := Some (Some r); e_dir := Some d; e_agency := None; e_type := None |}.
(** The trip of vehicle (0, 3), resolved as gtfsrt_resolve_run does. *)
Definition ent_trip : entity := {| e_stop := None; e_trip := Some (fun r => Some (mk_run (Some (0%nat, 3)) 0 3 (resolve_rt r (0%nat, 3)))); e_route := None; e_dir := None;
  e_agency := None; e_type := None |}.
Definition al_of (es : list entity) : alert := {| al_entities := es; al_active := [(100, 200)]; al_comm := []; al_impact := [(120, 0)]; al_text := 5%nat |}.
Definition ex_q (rt : option nat) (loc : option nat) : query := {| q_src := 0; q_route := 4; q_type := 3; q_agency := 2; q_dir := 1; q_rt := rt; q_loc := loc; q_fuzzy := false |}.
(** 0 is a track of 1, 1 a part of 2. *)
Definition ex_parent (l : nat) : option nat := match l with O => Some 1%nat | 1%nat => Some 2%nat | _ => None end.
Definition ex_alerts : list (nat * alert) :=
  [(0%nat, al_of [ent0]); (0%nat, al_of [ent_stop 1]); (0%nat, al_of [ent_route 4 1 None; ent_trip]); (0%nat, al_of [ent_route 4 0 None]); (0%nat, al_of [ent_route 4 1 (Some (Some 2%nat))])].
Example C71_example :
  let st := handle_alerts ex_stt (create_rt_timetable ex_stt 100000, no_alerts) ex_alerts in
  forward ex_stt /\ honest ent_trip /\
  get_alerts ex_parent (snd st) (ex_q (Some 0%nat) None) = [1%nat; 1%nat] /\ get_alerts ex_parent (snd st) (ex_q None (Some 0%nat)) = [3%nat; 0%nat] /\
  as_comm (snd st) = [[(100, 200)]; [(100, 200)]; [(100, 200)]; [(100, 200)]] /\ rt_times (fst st) = [[4420; 4430; 4430; 4440]].
Proof.
  cbv zeta. split.
  { intros ti day k. cbn [ex_stt s_seq s_event length]. split; intros; lia. }
  split; [intros f r u [= <-] [= <-]; reflexivity|]. vm_compute. repeat split.
Qed.

(** An alert about a cancelled trip creates a vehicle for it that runs: the trip is offered again. *)
Theorem C71_cancelled_trip_refuted :
  exists tt base src al, forward tt /\ Forall honest (al_entities al) /\
    let st := (apply_msg tt (create_rt_timetable tt base) (M_cancel src (0%nat, 3) 0 3), no_alerts) in
    is_transport_active tt (fst st) 0 3 = false /\ resolve_rt (fst st) (0%nat, 3) = None /\
    let r' := fst (handle_alert tt st src al) in
    resolve_rt r' (0%nat, 3) = Some 0%nat /\ AsScheduled tt r' 0.
Proof.
  exists ex_stt, 100000, 0%nat, (al_of [ent_trip]). split; [apply C71_example|]. split; [constructor; [apply C71_example|constructor]|].
  cbv zeta. split; [vm_compute; reflexivity|]. split; [vm_compute; reflexivity|]. split; [vm_compute; reflexivity|].
  set (st := (_, no_alerts)).
  assert (HI : state_inv (fst st)) by (apply apply_msg_state, create_state).
  destruct (handle_alert_grows ex_stt (fst st) (snd st) 0%nat (al_of [ent_trip])) as (_ & _ & _ & _ & G); [apply C71_example|constructor; [apply C71_example|constructor]|exact HI|].
  apply G. vm_compute. lia.
Qed.
(** The overlooked kinds exist: an alert for all trips of a route type, one for the station two levels up. *)
Theorem C71_overlooked_refuted :
  exists tt r0 h parent q i, let st := handle_alerts tt (r0, no_alerts) h in
    (exists l al sels s, Kept tt r0 h (fst st) l /\ nth_error l i = Some (al, sels) /\ In s sels /\ Informs parent q s) /\ ~ In i (get_alerts parent (snd st) q).
Proof.
  exists ex_stt, (create_rt_timetable ex_stt 100000), [(0%nat, al_of [ent_type 3; ent_stop 2])], ex_parent, (ex_q None (Some 0%nat)), 0%nat. cbv zeta. split.
  - destruct (handle_alerts_spec ex_stt [(0%nat, al_of [ent_type 3; ent_stop 2])] (create_rt_timetable ex_stt 100000) no_alerts [] holds_nil) as (l & K & _).
    assert (L : l = [(al_of [ent_type 3; ent_stop 2], [SelType 0 3 None; SelStop 2])]).
    { revert K. generalize (fst (handle_alerts ex_stt (create_rt_timetable ex_stt 100000, no_alerts) [(0%nat, al_of [ent_type 3; ent_stop 2])])). intros r2 K.
      inversion K as [|? ? ? ? ? ? ? N K2|? ? ? ? ? ? ? ? ? N K2]; subst.
      - exfalso. inversion N as [| |? ? ? ? ? N1 N2]; subst. apply (N1 (create_rt_timetable ex_stt 100000) (SelType 0 3 None)). apply resolve_entity_spec. reflexivity.
      - inversion K2; subst. inversion N as [|? ? ? ? ? ? ? N1 N2|? ? ? ? ? N1 N2]; subst.
        + apply resolve_entity_spec in N1. injection N1 as <- <-. inversion N2 as [|? ? ? ? ? ? ? N3 N4|? ? ? ? ? N3 N4]; subst.
          * apply resolve_entity_spec in N3. injection N3 as <- <-. inversion N4; subst. reflexivity.
          * exfalso. apply (N3 (create_rt_timetable ex_stt 100000) (SelStop 2)). apply resolve_entity_spec. reflexivity.
        + exfalso. apply (N1 (create_rt_timetable ex_stt 100000) (SelType 0 3 None)). apply resolve_entity_spec. reflexivity. }
    subst l. eexists _, _, _, (SelStop 2). split; [exact K|]. split; [reflexivity|]. split; [cbn; auto|]. cbn. exists 0%nat. split; [reflexivity|]. right. right. exists 1%nat. auto.
  - vm_compute. intros [].
Qed.
Print Assumptions C71_alerts_of_a_place.
Print Assumptions C71_alerts_change_no_vehicle.
Print Assumptions C71_cancelled_trip_refuted.
Print Assumptions C71_overlooked_refuted.
