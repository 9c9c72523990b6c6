(** Dispatch with listeners that leave the registrations alone is delivery of
    the plan. *)
From Coq Require Import List Arith NArith Bool Lia.
From Verif Require Import Base RingModel RingSpec RingProofs EventModel EventSpec EventProofs EventSafe StringProofs.
Import ListNotations.
Local Open Scope dom_scope.

(** * Delivery by groups *)
Section Groups.
Variable behave : list item -> list hop.
Record dst := mkD { d_seen : list item; d_stop : bool; d_now : bool; d_prev : bool }.
Definition push (n : nat) (ph : phase) (l : nat) (d : dst) : dst :=
  let seen := Called n l ph :: d_seen d in
  mkD seen (d_stop d || asks behave HStop seen) (d_now d || asks behave HStopNow seen) (d_prev d || asks behave HPrevent seen).
Fixpoint grp (n : nat) (ph : phase) (ls : list nat) (d : dst) : dst :=
  match ls with
  | [] => d
  | l :: r => let d1 := push n ph l d in if d_now d1 then d1 else grp n ph r d1
  end.
Definition group : Type := (nat * phase * list nat)%type.
Definition ended (d : dst) : bool := d_now d || d_stop d.
Fixpoint groups (gs : list group) (d : dst) : dst :=
  match gs with
  | [] => d
  | (n, ph, ls) :: r => let d1 := grp n ph ls d in if ended d1 then d1 else groups r d1
  end.
Definition flatten (gs : list group) : list call := flat_map (fun g => map (fun l => (fst g, l)) (snd g)) gs.

Lemma groups_app : forall a b d, ended d = false -> groups (a ++ b) d = let d1 := groups a d in if ended d1 then d1 else groups b d1.
Proof.
  induction a as [|[[n ph] ls] a]; intros b d E.
  - simpl. rewrite E. auto.
  - cbn [app groups]. destruct (ended (grp n ph ls d)) eqn:E1.
    + rewrite E1. auto.
    + apply IHa; auto.
Qed.
Lemma groups_filter : forall (g : nat -> group) (b : nat -> bool) ts d, ended d = false -> (forall t, b t = false -> snd (g t) = []) ->
  groups (map g (filter b ts)) d = groups (map g ts) d.
Proof.
  induction ts as [|t ts]; intros d E H; auto. cbn [filter map]. destruct (b t) eqn:B.
  - cbn [map groups]. destruct (g t) as [[n ph] ls]. destruct (ended (grp n ph ls d)) eqn:E1; auto.
  - specialize (H t B) as Ht. cbn [groups]. destruct (g t) as [[n ph] ls]. cbn [snd] in Ht. subst ls. cbn [grp]. rewrite E. auto.
Qed.

Definition key_of (c : call) : nat * phase := fst c.
Lemma phase_eqb_refl : forall p, phase_eqb p p = true. Proof. destruct p; auto. Qed.
Lemma phase_eqb_eq : forall p q, phase_eqb p q = true -> p = q. Proof. destruct p, q; simpl; congruence. Qed.

Lemma deliver_halted : forall rest n ph seen, (forall c, In c rest -> key_of c <> (n, ph)) -> deliver behave rest (Some (n, ph)) seen = seen.
Proof.
  intros [|[[n' ph'] l] rest] n ph seen H; auto. cbn [deliver]. destruct (Nat.eqb n' n && phase_eqb ph' ph) eqn:E; auto.
  apply andb_true_iff in E. destruct E as [A B]. apply Nat.eqb_eq in A. apply phase_eqb_eq in B. subst. exfalso. apply (H (n, ph, l)); simpl; auto.
Qed.
Lemma deliver_grp : forall n ph ls rest d, d_now d = false -> (forall c, In c rest -> key_of c <> (n, ph)) ->
  deliver behave (map (fun l => ((n, ph), l)) ls ++ rest) (if d_stop d then Some (n, ph) else None) (d_seen d) =
  let d1 := grp n ph ls d in if ended d1 then d_seen d1 else deliver behave rest None (d_seen d1).
Proof.
  intros n ph. induction ls as [|l ls]; intros rest d N H.
  - cbn [map app grp]. unfold ended. rewrite N. cbn [orb]. destruct (d_stop d); auto. apply deliver_halted; auto.
  - cbn [map app grp deliver]. set (d1 := push n ph l d).
    assert (G : match (if d_stop d then Some (n, ph) else None) with Some (n', ph') => negb (Nat.eqb n n' && phase_eqb ph ph') | None => false end = false).
    { destruct (d_stop d); auto. rewrite Nat.eqb_refl, phase_eqb_refl. auto. }
    rewrite G. change (Called n l ph :: d_seen d) with (d_seen d1).
    assert (N1 : d_now d1 = asks behave HStopNow (d_seen d1)) by (unfold d1; cbn [push d_now]; rewrite N; auto).
    rewrite <- N1. destruct (d_now d1) eqn:E.
    + unfold ended. rewrite E. auto.
    + rewrite <- IHls; auto. f_equal. unfold d1 at 2. cbn [push d_stop]. fold d1.
      change (Called n l ph :: d_seen d) with (d_seen d1). destruct (asks behave HStop (d_seen d1)); [rewrite orb_true_r|rewrite orb_false_r]; auto.
Qed.
Lemma deliver_groups : forall gs d, ended d = false -> NoDup (map fst gs) -> deliver behave (flatten gs) None (d_seen d) = d_seen (groups gs d).
Proof.
  induction gs as [|[[n ph] ls] gs]; intros d E ND; auto. unfold ended in E. apply orb_false_iff in E. destruct E as [N S].
  cbn [flatten flat_map groups fst snd]. fold (flatten gs). cbn [map fst] in ND. inversion ND as [|? ? NI ND']; subst.
  pose proof (deliver_grp n ph ls (flatten gs) d N) as D. rewrite S in D. rewrite D.
  - cbn zeta. destruct (ended (grp n ph ls d)) eqn:E; auto.
  - intros c I K. apply NI. unfold flatten in I. apply in_flat_map in I. destruct I as (g & G1 & G2). apply in_map_iff in G2. destruct G2 as (l & <- & _).
    cbn [key_of fst] in K. rewrite <- K. apply in_map; auto.
Qed.

(** Flags are what the delivered calls asked for. *)
Definition grew (d d' : dst) : Prop := exists new,
  d_seen d' = new ++ d_seen d /\ (forall i, In i new -> exists n l ph, i = Called n l ph) /\
  d_stop d' = d_stop d || asked behave HStop new (d_seen d) /\
  d_now d' = d_now d || asked behave HStopNow new (d_seen d) /\
  d_prev d' = d_prev d || asked behave HPrevent new (d_seen d).
Lemma asked_app : forall o a b old, asked behave o (a ++ b) old = asked behave o a (b ++ old) || asked behave o b old.
Proof. induction a; intros; auto. cbn [app asked]. rewrite IHa, app_assoc, orb_assoc. auto. Qed.
Lemma grew_refl : forall d, grew d d.
Proof. intros d. exists []. cbn [asked app]. rewrite !orb_false_r. repeat split; auto. intros i []. Qed.
Lemma grew_trans : forall a b c, grew a b -> grew b c -> grew a c.
Proof.
  intros a b c (n1 & A1 & A2 & A3 & A4 & A5) (n2 & B1 & B2 & B3 & B4 & B5). exists (n2 ++ n1). rewrite A1 in *.
  split; [rewrite B1; apply app_assoc|]. split.
  - intros i I. apply in_app_iff in I. destruct I; auto.
  - rewrite !asked_app. rewrite B3, B4, B5, A3, A4, A5. repeat split; rewrite <- orb_assoc; f_equal; apply orb_comm.
Qed.
Lemma grew_push : forall n ph l d, grew d (push n ph l d).
Proof.
  intros. exists [Called n l ph]. unfold push. cbn [d_seen d_stop d_now d_prev asked app]. rewrite !orb_false_r.
  repeat split; auto. intros i [<-|[]]; eauto.
Qed.
Lemma grew_grp : forall n ph ls d, grew d (grp n ph ls d).
Proof.
  intros n ph. induction ls as [|l ls]; intros d; [apply grew_refl|]. cbn [grp]. destruct (d_now (push n ph l d)); [apply grew_push|].
  eapply grew_trans; [apply grew_push|apply IHls].
Qed.
Lemma grew_groups : forall gs d, grew d (groups gs d).
Proof.
  induction gs as [|[[n ph] ls] gs]; intros d; [apply grew_refl|]. cbn [groups]. destruct (ended (grp n ph ls d)); [apply grew_grp|].
  eapply grew_trans; [apply grew_grp|apply IHgs].
Qed.
End Groups.

(** * The code *)
(** Everything quiet listeners leave alone. *)
Record kept (s s' : estate) : Prop := {
  k_ring : es_ring s' = es_ring s; k_info : es_info s' = es_info s; k_fresh : es_fresh s' = es_fresh s;
  k_head : es_head s' = es_head s; k_actions : es_actions s' = es_actions s }.
Lemma kept_refl : forall s, kept s s. Proof. constructor; auto. Qed.
Lemma kept_trans : forall a b c, kept a b -> kept b c -> kept a c.
Proof. intros a b c [A1 A2 A3 A4 A5] [B1 B2 B3 B4 B5]. constructor; congruence. Qed.
Lemma kept_einv : forall s s' q, kept s s' -> einv s q -> einv s' q.
Proof. intros s s' q [A B C D E] V. eapply einv_ext; eauto. Qed.

Definition shows (s : estate) (d : dst) : Prop :=
  es_log s = d_seen d /\ ev_stop (es_ev s) = d_stop d /\ ev_stop_now (es_ev s) = d_now d /\ ev_prevent (es_ev s) = d_prev d.

Definition quiet_op (o : hop) : Prop := match o with HStop | HStopNow | HPrevent | HMove _ _ => True | _ => False end.
Lemma run_ops_quiet : forall os s, (forall o, In o os -> quiet_op o) ->
  exists s', run_ops os s = Ok tt s' /\ kept s s' /\ flags_grow (es_ev s) (es_ev s') /\ es_log s' = es_log s /\
    ev_stop (es_ev s') = ev_stop (es_ev s) || existsb (hop_is HStop) os /\
    ev_stop_now (es_ev s') = ev_stop_now (es_ev s) || existsb (hop_is HStopNow) os /\
    ev_prevent (es_ev s') = ev_prevent (es_ev s) || existsb (hop_is HPrevent) os.
Proof.
  induction os as [|o os]; intros s H.
  - exists s. cbn [existsb]. rewrite !orb_false_r. repeat split; auto.
  - assert (QO : quiet_op o) by (apply H; simpl; auto).
    assert (ONE : exists s1, run_op o s = Ok tt s1 /\ kept s s1 /\ flags_grow (es_ev s) (es_ev s1) /\ es_log s1 = es_log s /\
       ev_stop (es_ev s1) = ev_stop (es_ev s) || hop_is HStop o /\ ev_stop_now (es_ev s1) = ev_stop_now (es_ev s) || hop_is HStopNow o /\
       ev_prevent (es_ev s1) = ev_prevent (es_ev s) || hop_is HPrevent o).
    { destruct o; try destruct QO; (eexists; split; [reflexivity|]; cbn [hop_is]; rewrite ?orb_false_r, ?orb_true_r; repeat split; auto). }
    destruct ONE as (s1 & A & K1 & F1 & L1 & S1 & N1 & P1).
    destruct (IHos s1) as (s2 & B & K2 & F2 & L2 & S2 & N2 & P2); [intros; apply H; simpl; auto|].
    exists s2. cbn [run_ops existsb]. rewrite (rbind_ok _ _ _ _ _ _ _ _ A). split; auto. split; [eapply kept_trans; eauto|].
    split; [eapply flags_grow_trans; eauto|]. split; [congruence|]. rewrite S2, N2, P2, S1, N1, P1. rewrite !orb_assoc. auto.
Qed.

Definition sel (ty : bytes) (bub : bool) (ph : phase) (i : entry) : bool :=
  bytes_eqb (e_type i) ty && match ph with Capturing => e_capture i | AtTarget => true | Bubbling => negb (e_capture i) && bub end.
(** The event while it is dispatched. *)
Definition going (ty : bytes) (bub : bool) (et : nat) (ev : event) : Prop :=
  ev_type ev = Some ty /\ ev_bubble ev = bub /\ ev_target ev = Some et /\ ev_in_dispatch ev = true.

Section Quiet.
Variable behave : list item -> list hop.
Hypothesis Q : quiet behave.

Lemma call_handler_quiet : forall s n l ph d, shows s d ->
  exists s', call_handler behave n l ph s = Ok tt s' /\ kept s s' /\ flags_grow (es_ev s) (es_ev s') /\ shows s' (push behave n ph l d).
Proof.
  intros s n l ph d (L & S & N & P). unfold call_handler. set (s1 := set_log (cons (Called n l ph)) s).
  destruct (run_ops_quiet (behave (es_log s1)) s1) as (s' & A & K & F & L' & S' & N' & P'); [intros o I; apply (Q _ _ I)|].
  exists s'. split; auto. split; [destruct K; constructor; auto|]. split; auto.
  assert (E : es_log s1 = Called n l ph :: d_seen d) by (unfold s1; simpl; congruence).
  unfold shows, push. cbn [d_seen d_stop d_now d_prev]. unfold asks. rewrite <- E. rewrite L', S', N', P'.
  change (es_ev s1) with (es_ev s). rewrite S, N, P. auto.
Qed.

Lemma applies_sel : forall ty bub et ev ph i, going ty bub et ev -> (ph = AtTarget -> ev_current ev = Some et) ->
  has_type ev i && applies ph ev i = sel ty bub ph i.
Proof.
  intros ty bub et ev ph i (T & B & G & _) C. unfold has_type, applies, sel. rewrite T, B, G. f_equal. destruct ph; simpl.
  - destruct (e_capture i), bub; simpl; auto; rewrite andb_false_r; auto.
  - rewrite C by auto. simpl. rewrite Nat.eqb_refl. rewrite !andb_false_r. auto.
  - destruct (e_capture i), bub; simpl; auto; rewrite andb_false_r; auto.
Qed.
Lemma going_grow : forall ty bub et a b, going ty bub et a -> flags_grow a b -> going ty bub et b.
Proof. unfold going, flags_grow. intros. intuition congruence. Qed.

Lemma target_loop_quiet : forall ty bub et l2 cs s q n ph l1 x fuel d, einv s q -> q n = l1 ++ x :: l2 -> contents s (x :: l2) cs ->
  going ty bub et (es_ev s) -> (ph = AtTarget -> ev_current (es_ev s) = Some et) -> length l2 < fuel -> shows s d ->
  exists s', target_loop behave fuel n ph x s = Ok tt s' /\ kept s s' /\ going ty bub et (es_ev s') /\
    shows s' (grp behave n ph (map e_listener (filter (sel ty bub ph) cs)) d).
Proof.
  intros ty bub et. induction l2 as [|x' l2]; intros cs s q n ph l1 x fuel d V Qn C G CU LT SH; (destruct fuel as [|f]; [simpl in LT; lia|]);
    (destruct cs as [|i cs]; [discriminate|]); unfold contents in C; cbn [map] in C; injection C as EI C;
    cbn [target_loop]; rewrite (rbind_ok _ _ _ _ _ _ _ _ (load_info_ok _ _ _ EI)); unfold bind at 1, getst;
    rewrite (applies_sel ty bub et) by auto; cbn [filter];
    pose proof (iv_ring _ _ V n) as R; rewrite Qn in R; destruct (qring_next _ _ _ _ R) as (c & HC & NC).
  - destruct cs as [|? cs]; [|discriminate]. cbn [filter].
    assert (STEP : exists b s1, (if sel ty bub ph i then call_handler behave n (e_listener i) ph ;;; s1 <- getst ;; (if ev_stop_now (es_ev s1) then ret false else still_there n x) else ret true) s = Ok b s1 /\
       kept s s1 /\ going ty bub et (es_ev s1) /\ shows s1 (grp behave n ph (map e_listener (if sel ty bub ph i then [i] else [])) d)).
    { destruct (sel ty bub ph i).
      - destruct (call_handler_quiet s n (e_listener i) ph d SH) as (s1 & A & K & F & SH1). rewrite (rbind_ok _ _ _ _ _ _ _ _ A).
        cbn [map grp]. set (d1 := push behave n ph (e_listener i) d) in *. assert (E : (if d_now d1 then d1 else d1) = d1) by (destruct (d_now d1); auto). rewrite E.
        unfold bind, getst. destruct (ev_stop_now (es_ev s1)).
        + exists false, s1. repeat (split; auto). all: eapply going_grow; eauto.
        + destruct (still_there_ok s1 q n x (kept_einv _ _ _ K V)) as (b & B & _). exists b, s1. split; auto. split; auto. split; auto. eapply going_grow; eauto.
      - exists true, s. split; auto. split; [apply kept_refl|]. auto. }
    destruct STEP as (b & s1 & A & K & G1 & SH1). unfold getst in A. rewrite (rbind_ok _ _ _ _ _ _ _ _ A). destruct b; cbn [negb].
    + assert (HC1 : es_ring s1 x = Some c) by (rewrite (k_ring _ _ K); auto). rewrite (rbind_ok _ _ _ _ _ _ _ _ (load_next_ok _ _ _ HC1)). rewrite NC.
      unfold bind, get_head. rewrite (k_head _ _ K), (iv_head _ _ V), Qn.
      assert (E : hd_error (l1 ++ [x]) = Some (hd x ([] ++ l1))) by (destruct l1; auto). rewrite E. cbn [opt_eqb]. rewrite Nat.eqb_refl. exists s1. auto.
    + exists s1. auto.
  - assert (HN : exists a, hd_error (l1 ++ x :: x' :: l2) = Some a /\ a <> x').
    { pose proof (qring_nodup _ _ R) as ND'. destruct l1 as [|a l1]; simpl.
      - exists x. split; auto. intros ->. inversion ND'; subst. apply H1. simpl; auto.
      - exists a. split; auto. intros ->. inversion ND'; subst. apply H1. apply in_app_iff. simpl; auto. }
    destruct HN as (a & HA & NE). apply not_eq_sym, Nat.eqb_neq in NE.
    assert (Qn' : q n = (l1 ++ [x]) ++ x' :: l2) by (rewrite <- app_assoc; auto).
    assert (LT' : length l2 < f) by (simpl in LT; lia).
    assert (NEXT : forall s1 d1, kept s s1 -> going ty bub et (es_ev s1) -> (ph = AtTarget -> ev_current (es_ev s1) = Some et) -> shows s1 d1 ->
       exists s', (nx <- load_next x ;; h <- get_head n ;; match nx with None => stuck NullDeref | Some y => if opt_eqb Nat.eqb (Some y) h then ret tt else target_loop behave f n ph y end) s1 = Ok tt s' /\
         kept s s' /\ going ty bub et (es_ev s') /\ shows s' (grp behave n ph (map e_listener (filter (sel ty bub ph) cs)) d1)).
    { intros s1 d1 K G1 CU1 SH1.
      assert (HC1 : es_ring s1 x = Some c) by (rewrite (k_ring _ _ K); auto). rewrite (rbind_ok _ _ _ _ _ _ _ _ (load_next_ok _ _ _ HC1)). rewrite NC.
      unfold bind, get_head. rewrite (k_head _ _ K), (iv_head _ _ V), Qn, HA. cbn [app hd opt_eqb]. rewrite NE.
      destruct (IHl2 cs s1 q n ph (l1 ++ [x]) x' f d1 (kept_einv _ _ _ K V) Qn') as (s' & A & K' & G' & SH'); auto.
      { unfold contents. rewrite (k_info _ _ K). exact C. }
      exists s'. split; auto. split; auto. eapply kept_trans; eauto. }
    destruct (sel ty bub ph i).
    + destruct (call_handler_quiet s n (e_listener i) ph d SH) as (s1 & A & K & F & SH1).
      cbn [map grp]. destruct SH1 as (L1 & S1 & N1 & P1).
      assert (A' : (call_handler behave n (e_listener i) ph ;;; s1 <- getst ;; (if ev_stop_now (es_ev s1) then ret false else still_there n x)) s = Ok (negb (d_now (push behave n ph (e_listener i) d))) s1).
      { rewrite (rbind_ok _ _ _ _ _ _ _ _ A). unfold bind, getst. rewrite N1. destruct (d_now (push behave n ph (e_listener i) d)); [reflexivity|].
        destruct (still_there_ok s1 q n x (kept_einv _ _ _ K V)) as (b & B & BT). rewrite B.
        rewrite (proj2 BT) by (rewrite Qn; apply in_app_iff; simpl; auto). auto. }
      unfold getst in A'. rewrite (rbind_ok _ _ _ _ _ _ _ _ A').
      destruct (d_now (push behave n ph (e_listener i) d)) eqn:EN.
      * exists s1. cbn [ret negb]. split; auto. split; auto. split; [eapply going_grow; eauto|]. unfold shows. rewrite N1, EN. auto.
      * cbn [negb]. apply NEXT; auto.
        -- eapply going_grow; eauto.
        -- intros EP. destruct F as (_ & _ & _ & _ & _ & F & _). rewrite F. auto.
        -- unfold shows. rewrite N1, EN. auto.
    + unfold bind at 1. cbn [ret negb]. apply NEXT; auto. apply kept_refl.
Qed.

Definition ls_of (ty : bytes) (bub : bool) (reg : registry) (ph : phase) (n : nat) : list nat := map e_listener (filter (sel ty bub ph) (reg n)).

Lemma target_dispatch_quiet : forall ty bub et s q n ph fuel d reg, einv s q -> contents s (q n) (reg n) ->
  going ty bub et (es_ev s) -> (ph = AtTarget -> n = et) -> length (q n) <= fuel -> shows s d ->
  exists s', target_dispatch behave fuel n ph s = Ok tt s' /\ kept s s' /\ going ty bub et (es_ev s') /\ shows s' (grp behave n ph (ls_of ty bub reg ph n) d).
Proof.
  intros ty bub et s q n ph fuel d reg V C G AT LE SH. unfold target_dispatch, bind at 1, get_head. rewrite (iv_head _ _ V). unfold ls_of.
  destruct (q n) as [|x l2] eqn:Qn; cbn [hd_error].
  - destruct (reg n); [|discriminate]. exists s. split; auto. split; [apply kept_refl|]. auto.
  - unfold bind, modst. set (s1 := set_ev (ev_set_current n) s).
    destruct (target_loop_quiet ty bub et l2 (reg n) s1 q n ph [] x fuel d) as (s' & A & K & G' & SH'); auto.
    + eapply einv_ext; eauto.
    + intros E. change (Some n = Some et). f_equal. auto.
    + exists s'. split; auto. split; auto. destruct K; constructor; auto.
Qed.

Lemma visit_quiet : forall ty bub et ph fuel reg ts s q d, einv s q -> (forall n, contents s (q n) (reg n)) ->
  going ty bub et (es_ev s) -> ph <> AtTarget -> (forall n, length (q n) <= fuel) -> shows s d -> ended d = false ->
  exists s' b, visit behave fuel ph ts s = Ok b s' /\ kept s s' /\ going ty bub et (es_ev s') /\
    shows s' (groups behave (map (fun n => (n, ph, ls_of ty bub reg ph n)) ts) d) /\
    b = ended (groups behave (map (fun n => (n, ph, ls_of ty bub reg ph n)) ts) d).
Proof.
  intros ty bub et ph fuel reg. induction ts as [|t ts]; intros s q d V C G NP LE SH ED.
  - exists s, false. cbn [map groups visit]. split; auto. split; [apply kept_refl|]. auto.
  - cbn [visit map groups].
    destruct (target_dispatch_quiet ty bub et s q t ph fuel d reg V (C t) G) as (s1 & A & K & G1 & SH1); auto. { intros E; congruence. }
    rewrite (rbind_ok _ _ _ _ _ _ _ _ A). unfold bind, getst. set (d1 := grp behave t ph (ls_of ty bub reg ph t) d) in *.
    destruct SH1 as (L1 & S1 & N1 & P1). rewrite S1, N1. fold (ended d1). destruct (ended d1) eqn:E1.
    + exists s1, true. split; auto. split; auto. split; auto. split; [unfold shows; auto|auto].
    + destruct (IHts s1 q d1 (kept_einv _ _ _ K V)) as (s2 & b & A2 & K2 & G2 & SH2 & B2); auto.
      { intros n. unfold contents. rewrite (k_info _ _ K). apply C. } { unfold shows; auto. }
      exists s2, b. split; auto. split; [eapply kept_trans; eauto|]. auto.
Qed.
End Quiet.

(** * The path *)
Lemma above_fun : forall p f h n l, above p f h n l -> forall m, above p f h n m -> m = l.
Proof.
  induction 1 as [n P F|n x l P A IH|n x l P F H A IH]; intros m B; inversion B as [n' P' F'|n' x' m' P' B'|n' x' m' P' F' H' B']; subst; auto; try congruence.
  - specialize (F F'). congruence.
  - assert (x' = x) by congruence. subst. f_equal. auto.
  - specialize (F' F). congruence.
  - assert (x' = x) by congruence. subst. f_equal. auto.
Qed.
Lemma above_suffix : forall p f h n l, above p f h n l -> forall l1 x l2, l = l1 ++ x :: l2 -> above p f h x l2.
Proof.
  induction 1 as [n P F|n x l P A IH|n x l P F H A IH]; intros l1 y l2 E; destruct l1 as [|z l1]; simpl in E; try discriminate; injection E as <- E; subst; eauto.
Qed.
Lemma above_nodup : forall p f h n l, above p f h n l -> NoDup (n :: l).
Proof.
  assert (NI : forall p f h n l, above p f h n l -> ~ In n l).
  { intros p f h n l A I. apply in_split in I. destruct I as (l1 & l2 & ->). pose proof (above_suffix _ _ _ _ _ A _ _ _ eq_refl) as B.
    pose proof (above_fun _ _ _ _ _ A _ B) as E. apply (f_equal (@length nat)) in E. rewrite app_length in E. simpl in E. lia. }
  induction 1 as [n P F|n x l P A IH|n x l P F H A IH].
  - constructor; auto. constructor.
  - constructor; auto. eapply NI. eapply ab_parent; eauto.
  - constructor; auto. eapply NI. eapply ab_host; eauto.
Qed.
Definition listens (s : estate) (n : nat) : bool := match listening n s with Ok b _ => b | _ => false end.
Lemma collect_ok : forall s q n l, einv s q -> above (es_parent s) (es_frag s) (es_host s) n l -> forall fuel, length l < fuel ->
  collect fuel (Some n) s = Ok (filter (listens s) (n :: l)) s.
Proof.
  intros s q n l V A. induction A as [n P F|n x l P A IH|n x l P F H A IH]; intros fuel LT; (destruct fuel as [|f]; [simpl in LT; lia|]);
    cbn [collect]; destruct (listening_ok s q n V) as (b & B & _); rewrite (rbind_ok _ _ _ _ _ _ _ _ B); unfold bind at 1, getst; unfold up; rewrite P;
    assert (EB : listens s n = b) by (unfold listens; rewrite B; auto); cbn [filter]; rewrite EB.
  - destruct (es_frag s n); [rewrite F by auto|]; destruct f; destruct b; reflexivity.
  - cbn [length] in LT. rewrite (rbind_ok _ _ _ _ _ _ _ _ (IH f ltac:(lia))). reflexivity.
  - rewrite F, H. cbn [length] in LT. rewrite (rbind_ok _ _ _ _ _ _ _ _ (IH f ltac:(lia))). reflexivity.
Qed.
Lemma listens_none : forall s q n ty cs bub ph, einv s q -> contents s (q n) cs -> ev_type (es_ev s) = Some ty -> listens s n = false -> filter (sel ty bub ph) cs = [].
Proof.
  intros s q n ty cs bub ph V C T L. destruct (listening_ok s q n V) as (b & B & H). unfold listens in L. rewrite B in L. subst b. specialize (H eq_refl).
  assert (G : forall i, In i cs -> bytes_eqb (e_type i) ty = false).
  { intros i I. assert (J : In (Some i) (map (es_info s) (q n))) by (rewrite C; apply in_map; auto).
    apply in_map_iff in J. destruct J as (y & E & Y). specialize (H y i Y E). unfold has_type in H. rewrite T in H. auto. }
  clear - G. induction cs as [|i cs]; auto. cbn [filter]. unfold sel at 1. rewrite G by (simpl; auto). cbn [andb]. apply IHcs. intros; apply G; simpl; auto.
Qed.

Definition opening (s : estate) : list item := if es_actions s then [Acted ActStarted] else [].
Definition closing (actions stopped prevented : bool) : list item :=
  if actions then Acted ActFinished :: (if stopped then [] else [Acted (if prevented then ActPrevented else ActEnd)]) else [].

Lemma plan_flatten : forall reg ty bub et path,
  flatten (map (fun n => (n, Capturing, ls_of ty bub reg Capturing n)) (rev path) ++ (et, AtTarget, ls_of ty bub reg AtTarget et) :: map (fun n => (n, Bubbling, ls_of ty bub reg Bubbling n)) path) =
  plan reg ty bub et path.
Proof.
  intros. unfold flatten, plan. rewrite flat_map_app. cbn [flat_map fst snd].
  assert (FM : forall (f : nat -> group) l, flat_map (fun g => map (fun x => (fst g, x)) (snd g)) (map f l) = flat_map (fun n => map (fun x => (fst (f n), x)) (snd (f n))) l).
  { intros f l. induction l; auto. cbn [map flat_map]. rewrite IHl. auto. }
  rewrite !FM. cbn [fst snd].
  assert (FF : forall A (P R : A -> bool) l, filter P (filter R l) = filter (fun x => R x && P x) l).
  { intros A P R l. induction l as [|x l]; auto. cbn [filter]. destruct (R x); cbn [filter andb]; rewrite IHl; auto. }
  apply (f_equal2 (@app call)); [|apply (f_equal2 (@app call))].
  - apply flat_map_ext. intros n. unfold capture_calls, calls_on, ls_of, of_type. rewrite map_map. rewrite FF. unfold sel. reflexivity.
  - unfold target_calls, calls_on, ls_of, of_type. rewrite map_map. f_equal. apply filter_ext. intros i. unfold sel. apply andb_true_r.
  - destruct bub.
    + apply flat_map_ext. intros n. unfold bubble_calls, calls_on, ls_of, of_type. rewrite map_map. rewrite FF. f_equal. apply filter_ext. intros i. unfold sel. rewrite andb_true_r. auto.
    + induction path as [|n path]; auto. cbn [flat_map]. rewrite IHpath, app_nil_r. unfold ls_of.
      assert (E : filter (sel ty false Bubbling) (reg n) = []); [|rewrite E; auto]. unfold sel. induction (reg n) as [|i l]; auto. cbn [filter]. rewrite andb_false_r, andb_false_r. auto.
Qed.

Lemma dispatch_quiet : forall behave s ty et path reg, quiet behave -> ereach s -> pristine (es_ev s) ty -> (forall n, listed s n (reg n)) ->
  above (es_parent s) (es_frag s) (es_host s) et path -> (es_parent s et = None -> es_frag s et = true -> es_host s et = None) ->
  exists bound, forall fuel, bound <= fuel -> exists s' new,
    let before := opening s ++ es_log s in
    node_dispatch behave fuel et s = Ok (negb (asked behave HPrevent new before)) s' /\
    new ++ before = deliver behave (plan reg ty (ev_bubble (es_ev s)) et path) None before /\
    es_log s' = closing (es_actions s) (asked behave HStop new before || asked behave HStopNow new before) (asked behave HPrevent new before) ++ new ++ before /\
    ev_in_dispatch (es_ev s') = true /\ (forall n, listed s' n (reg n)).
Proof.
  intros behave s ty et path reg QU RE PR LI AB NF. destruct (ereach_inv s RE) as [q V].
  assert (C : forall n, contents s (q n) (reg n)) by (intros n; apply (listed_iff s q n); auto).
  destruct PR as (T & S & N & P & D). exists (es_fresh s + Datatypes.S (length path)). intros fuel FU. cbn zeta.
  set (bub := ev_bubble (es_ev s)). set (before := opening s ++ es_log s).
  assert (LE : forall n, length (q n) <= fuel) by (intros n; pose proof (einv_length s q n V); lia).
  set (s1 := set_ev ev_set_in_dispatch s). assert (V1 : einv s1 q) by (eapply einv_ext; eauto).
  assert (T1 : ev_type (es_ev s1) = Some ty) by exact T.
  assert (COL : collect fuel (es_parent s et) s1 = Ok (filter (listens s1) path) s1).
  { inversion AB as [n' P' F'|n' x m' P' A'|n' x m' P' F' H' A']; subst.
    - rewrite P'. destruct fuel; reflexivity.
    - rewrite P'. apply (collect_ok s1 q x m' V1 A' fuel). cbn [length] in FU. lia.
    - rewrite NF in H' by auto. discriminate. }
  set (ts := filter (listens s1) path) in *.
  assert (NL : forall ph n, listens s1 n = false -> ls_of ty bub reg ph n = []).
  { intros ph n L. unfold ls_of. rewrite (listens_none s1 q n ty (reg n) bub ph V1 (C n) T1 L). auto. }
  unfold node_dispatch, bind at 1, getst at 1. rewrite D. unfold bind at 1, modst at 1. rewrite T. fold s1.
  rewrite (rbind_ok _ _ _ _ _ _ _ _ COL). unfold bind at 1, modst at 1.
  set (s2 := set_ev (fun e => ev_set_phase Capturing (ev_set_target et e)) s1).
  set (d0 := mkD before false false false).
  assert (ACT : exists s3, act ActStarted s2 = Ok tt s3 /\ kept s s3 /\ going ty bub et (es_ev s3) /\ shows s3 d0).
  { unfold act. change (es_actions s2) with (es_actions s). unfold before, opening in d0. unfold d0. destruct (es_actions s) eqn:EA.
    - eexists. split; [reflexivity|]. split; [constructor; simpl; auto|]. split; [repeat split; auto|]. repeat split; auto.
    - eexists. split; [reflexivity|]. split; [constructor; simpl; auto|]. split; [repeat split; auto|]. repeat split; auto. }
  destruct ACT as (s3 & A3 & K3 & G3 & SH3). rewrite (rbind_ok _ _ _ _ _ _ _ _ A3).
  assert (CK : forall s', kept s s' -> forall n, contents s' (q n) (reg n)) by (intros s' K n; unfold contents; rewrite (k_info _ _ K); apply C).
  set (gc := map (fun n => (n, Capturing, ls_of ty bub reg Capturing n)) (rev path)).
  set (gt := (et, AtTarget, ls_of ty bub reg AtTarget et)).
  set (gb := map (fun n => (n, Bubbling, ls_of ty bub reg Bubbling n)) path).
  destruct (visit_quiet behave QU ty bub et Capturing fuel reg (rev ts) s3 q d0 (kept_einv _ _ _ K3 V) (CK _ K3) G3) as (s4 & b4 & A4 & K4 & G4 & SH4 & B4); auto; [discriminate|].
  rewrite (rbind_ok _ _ _ _ _ _ _ _ A4).
  assert (E4 : groups behave (map (fun n => (n, Capturing, ls_of ty bub reg Capturing n)) (rev ts)) d0 = groups behave gc d0).
  { unfold ts. assert (FR : forall (f : nat -> bool) l, rev (filter f l) = filter f (rev l)).
    { intros f l. induction l as [|y l]; auto. cbn [filter rev]. rewrite filter_app. cbn [filter]. destruct (f y); cbn [rev]; rewrite IHl; auto. rewrite app_nil_r. auto. }
    rewrite FR. apply (groups_filter behave (fun n => (n, Capturing, ls_of ty bub reg Capturing n))); [reflexivity|]. intros t Ht. apply NL; auto. }
  rewrite E4 in *. set (d4 := groups behave gc d0) in *.
  assert (KK4 : kept s s4) by (eapply kept_trans; eauto).
  set (d7 := groups behave (gc ++ gt :: gb) d0).
  match goal with |- context [bind ?m _ s4] => assert (MID : exists s7 , m s4 = Ok (ended d7) s7 /\ kept s s7 /\ going ty bub et (es_ev s7) /\ shows s7 d7) end.
  { unfold d7. rewrite groups_app by auto. cbn zeta. fold d4. rewrite <- B4. destruct b4.
    - exists s4. rewrite <- B4. split; auto.
    - unfold bind at 1, modst at 1. set (s5 := set_ev _ s4).
      destruct (target_dispatch_quiet behave QU ty bub et s5 q et AtTarget fuel d4 reg) as (s6 & A6 & K6 & G6 & SH6); auto.
      { eapply kept_einv; [|exact V]. destruct KK4; constructor; auto. }
      { apply (CK s4 KK4 et). }
      rewrite (rbind_ok _ _ _ _ _ _ _ _ A6). unfold bind at 1, getst. unfold gt. cbn [groups]. set (d6 := grp behave et AtTarget (ls_of ty bub reg AtTarget et) d4) in *.
      assert (KK6 : kept s s6) by (eapply kept_trans; [|exact K6]; destruct KK4; constructor; auto).
      pose proof SH6 as (L6 & S6 & N6 & P6). rewrite S6, N6. fold (ended d6). destruct (ended d6) eqn:E6.
      + exists s6. rewrite E6. split; auto.
      + unfold bind at 1, modst at 1. set (s6' := set_ev _ s6). assert (KK6' : kept s s6') by (destruct KK6; constructor; auto).
        destruct (visit_quiet behave QU ty bub et Bubbling fuel reg ts s6' q d6 (kept_einv _ _ _ KK6' V) (CK _ KK6')) as (s8 & b8 & A8 & K8 & G8 & SH8 & B8); auto; [discriminate|].
        assert (E8 : groups behave (map (fun n => (n, Bubbling, ls_of ty bub reg Bubbling n)) ts) d6 = groups behave gb d6).
        { apply (groups_filter behave (fun n => (n, Bubbling, ls_of ty bub reg Bubbling n))); auto. intros t Ht. apply NL; auto. }
        rewrite E8 in *. exists s8. rewrite <- B8. split; auto. split; [eapply kept_trans; eauto|]. auto. }
  destruct MID as (s7 & A7 & K7 & G7 & SH7). rewrite (rbind_ok _ _ _ _ _ _ _ _ A7).
  destruct (grew_groups behave (gc ++ gt :: gb) d0) as (new & W1 & W2 & W3 & W4 & W5). fold d7 in W1, W3, W4, W5.
  cbn [d0 d_seen d_stop d_now d_prev orb] in W1, W3, W4, W5.
  pose proof SH7 as (L7 & S7 & N7 & P7).
  assert (ND : NoDup (map fst (gc ++ gt :: gb))).
  { pose proof (above_nodup _ _ _ _ _ AB) as ND. inversion ND as [|? ? NI ND']; subst. rewrite map_app. cbn [map]. unfold gc, gb, gt. rewrite !map_map. cbn [fst].
    assert (NM : forall (ph : phase) l, NoDup l -> NoDup (map (fun n : nat => (n, ph)) l)).
    { intros ph l H. induction H as [|y l NY NDl]; cbn [map]; constructor; auto. intros I. apply in_map_iff in I. destruct I as (z & E & Z). injection E as ->. auto. }
    apply NoDup_app; [apply NM; apply NoDup_rev; auto| |].
    - constructor; [|apply NM; auto]. intros I. apply in_map_iff in I. destruct I as (z & E & _). discriminate.
    - intros [n ph] I J. apply in_map_iff in I. destruct I as (z & E & _). injection E as <- <-. destruct J as [J|J]; [discriminate|]. apply in_map_iff in J. destruct J as (y & E & _). discriminate. }
  assert (DEL : new ++ before = deliver behave (plan reg ty bub et path) None before).
  { rewrite <- W1. symmetry. rewrite <- plan_flatten. apply (deliver_groups behave (gc ++ gt :: gb) d0); auto. }
  assert (EE : ended d7 = asked behave HStop new before || asked behave HStopNow new before) by (unfold ended; rewrite W3, W4; apply orb_comm).
  match goal with |- context [bind ?m _ s7] => assert (END : exists s8, m s7 = Ok tt s8 /\ kept s s8 /\ es_ev s8 = es_ev s7 /\
     es_log s8 = (if es_actions s then (if ended d7 then [] else [Acted (if d_prev d7 then ActPrevented else ActEnd)]) else []) ++ new ++ before) end.
  { rewrite <- W1. destruct (ended d7).
    - exists s7. split; auto. split; auto. split; auto. rewrite L7. destruct (es_actions s); auto.
    - unfold bind, getst, act. rewrite (k_actions _ _ K7), P7. destruct (es_actions s) eqn:EA.
      + eexists. split; [reflexivity|]. split; [destruct K7; constructor; auto|]. split; auto. cbn [es_log set_log]. rewrite L7. reflexivity.
      + exists s7. auto. }
  destruct END as (s8 & A8 & K8 & E8 & L8). rewrite (rbind_ok _ _ _ _ _ _ _ _ A8).
  assert (FIN : exists s9, act ActFinished s8 = Ok tt s9 /\ kept s s9 /\ es_ev s9 = es_ev s7 /\ es_log s9 = closing (es_actions s) (ended d7) (d_prev d7) ++ new ++ before).
  { unfold act. rewrite (k_actions _ _ K8). unfold closing. destruct (es_actions s) eqn:EA.
    - eexists. split; [reflexivity|]. split; [destruct K8; constructor; auto|]. split; auto. cbn [es_log set_log]. rewrite L8. destruct (ended d7); reflexivity.
    - exists s8. auto. }
  destruct FIN as (s9 & A9 & K9 & E9 & L9). rewrite (rbind_ok _ _ _ _ _ _ _ _ A9). unfold bind, getst, ret.
  exists s9, new. rewrite E9, P7, W5. split; auto. split; auto. split; [rewrite L9, EE, W5; auto|]. split.
  - destruct G7 as (_ & _ & _ & G7). auto.
  - intros n. apply (listed_iff s9 q n); [eapply kept_einv; eauto|]. apply CK; auto.
Qed.
