(** Registrations after any history of calls, and facts about delivery. *)
From Coq Require Import List Arith NArith Bool Lia Permutation.
From Verif Require Import Base RingModel RingSpec RingProofs EventModel EventSpec EventProofs EventSafe EventDeliver StringProofs.
Import ListNotations.
Local Open Scope dom_scope.

Lemma bytes_eqb_iff : forall a b, bytes_eqb a b = true <-> a = b.
Proof. intros a b. destruct (bytes_eqb_spec a b); split; congruence. Qed.
Lemma entry_eqb_eq : forall a b, entry_eqb a b = true <-> a = b.
Proof.
  intros [t1 l1 c1] [t2 l2 c2]. unfold entry_eqb. cbn [e_type e_listener e_capture]. rewrite !andb_true_iff, bytes_eqb_iff, Nat.eqb_eq, Bool.eqb_true_iff.
  split; [intros ((-> & ->) & ->); auto|intros E; injection E; auto].
Qed.
Lemma entry_eqb_neq : forall a b, entry_eqb a b = false <-> a <> b.
Proof. intros a b. rewrite <- entry_eqb_eq. destruct (entry_eqb a b); split; congruence. Qed.
Lemma matches_entry : forall ty l c i, matches (Some ty) l c i = entry_eqb (mkEntry ty l c) i.
Proof.
  intros. destruct (entry_eqb (mkEntry ty l c) i) eqn:E.
  - apply entry_eqb_eq in E. subst. unfold matches. cbn. rewrite (proj2 (bytes_eqb_iff ty ty) eq_refl), Nat.eqb_refl, Bool.eqb_reflx. auto.
  - apply entry_eqb_neq in E. destruct (matches (Some ty) l c i) eqn:M; auto. exfalso. apply E. unfold matches in M. apply andb_true_iff in M. destruct M as [M C].
    apply andb_true_iff in M. destruct M as [M L]. apply bytes_eqb_iff in M. apply Nat.eqb_eq in L. apply Bool.eqb_prop in C. destruct i; cbn in *. congruence.
Qed.

(** What the code does to the registrations. *)
Definition cmeans (r : registry) (o : hop) : registry :=
  match o with
  | HAdd n ty l c => fun m => if Nat.eqb m n then r m ++ [mkEntry ty l c] else r m
  | HRemove n ty l c => fun m => if Nat.eqb m n then rot_remove (matches ty l c) [] (r m) else r m
  | _ => r
  end.
Lemma contents_rot : forall s P Pe, (forall x i, es_info s x = Some i -> P x = Pe i) -> forall l c b cb, contents s l c -> contents s b cb ->
  contents s (rot_remove P b l) (rot_remove Pe cb c).
Proof.
  intros s P Pe H. induction l as [|x l]; intros c b cb C B.
  - destruct c; [|discriminate]. auto.
  - destruct c as [|i c]; [discriminate|]. unfold contents in C. cbn [map] in C. injection C as E C. cbn [rot_remove]. rewrite (H x i E). destruct (Pe i).
    + apply contents_app; auto.
    + apply IHl; auto. apply contents_app; auto. unfold contents. simpl. congruence.
Qed.
Lemma rot_in : forall A (P : A -> bool) l b x, In x (rot_remove P b l) -> In x (b ++ l).
Proof.
  induction l as [|y l]; intros b x I; cbn [rot_remove] in I; [rewrite app_nil_r; auto|]. destruct (P y).
  - rewrite in_app_iff in *. simpl. tauto.
  - apply IHl in I. rewrite <- app_assoc in I. auto.
Qed.
Lemma run_op_contents : forall o s q r, einv s q -> (forall n, contents s (q n) (r n)) ->
  match o with HAdd _ _ _ _ | HRemove _ _ _ _ => True | _ => False end ->
  exists s' q', run_op o s = Ok tt s' /\ einv s' q' /\ (forall n, contents s' (q' n) (cmeans r o n)) /\ rest_same s s'.
Proof.
  intros o s q r V C H. destruct o as [n ty l c|n ty l c| | | | |]; try destruct H; cbn [run_op cmeans].
  - destruct (add_listener_ok s q n ty l c V) as (s' & A & B & R & I1 & I2). exists s'. eexists. split; [exact A|]. split; [exact B|]. split; auto.
    intros m. unfold upd. assert (NI : forall k, ~ In (es_fresh s) (q k)). { intros k I. apply (iv_fresh _ _ V) in I. lia. }
    assert (F : forall k, contents s' (q k) (r k)). { intros k. eapply contents_frame; [|apply C]. intros x I. apply I2. intros ->. apply (NI _ I). }
    destruct (Nat.eqb m n) eqn:E; auto. apply Nat.eqb_eq in E. subst. apply contents_app; auto. unfold contents. simpl. congruence.
  - destruct (remove_listener_ok s q n ty l c V) as (s' & A & B & R & _ & I). exists s'. eexists. split; [exact A|]. split; [exact B|]. split; auto.
    intros m. unfold upd. destruct (Nat.eqb m n) eqn:E.
    + apply Nat.eqb_eq in E. subst. eapply contents_frame; [intros x J; apply I; left; exact J|].
      apply contents_rot; auto; [|reflexivity]. intros x i EI. unfold entry_matches. rewrite EI. auto.
    + apply Nat.eqb_neq in E. eapply contents_frame; [|apply C]. intros x J. apply I. right. intros K. apply E. apply (iv_disj _ _ V m n x); auto.
Qed.

(** Removal: rotation against deletion. *)
Lemma filter_absent : forall e l, ~ In e l -> filter (fun i => negb (entry_eqb e i)) l = l.
Proof.
  induction l as [|x l]; intros NI; auto. cbn [filter]. destruct (entry_eqb e x) eqn:E.
  - apply entry_eqb_eq in E. subst. exfalso. apply NI. simpl; auto.
  - cbn [negb]. f_equal. apply IHl. intros I. apply NI. simpl; auto.
Qed.
Lemma rot_absent : forall ty l c cs b, ~ In (mkEntry ty l c) cs -> rot_remove (matches (Some ty) l c) b cs = b ++ cs.
Proof.
  induction cs as [|x cs]; intros b NI; cbn [rot_remove]; [rewrite app_nil_r; auto|]. rewrite matches_entry. destruct (entry_eqb (mkEntry ty l c) x) eqn:E.
  - apply entry_eqb_eq in E. subst. exfalso. apply NI. simpl; auto.
  - rewrite IHcs; [rewrite <- app_assoc; auto|]. intros I. apply NI. simpl; auto.
Qed.
Lemma rot_present : forall ty l c a b cs, ~ In (mkEntry ty l c) a -> rot_remove (matches (Some ty) l c) b (a ++ mkEntry ty l c :: cs) = cs ++ b ++ a.
Proof.
  induction a as [|x a]; intros b cs NI; cbn [rot_remove app].
  - rewrite matches_entry, (proj2 (entry_eqb_eq _ _) eq_refl), app_nil_r. auto.
  - rewrite matches_entry. destruct (entry_eqb (mkEntry ty l c) x) eqn:E.
    + apply entry_eqb_eq in E. subst. exfalso. apply NI. simpl; auto.
    + rewrite IHa; [rewrite <- app_assoc; auto|]. intros I. apply NI. simpl; auto.
Qed.
Definition entry_dec : forall a b : entry, {a = b} + {a <> b}.
Proof. intros a b. destruct (entry_eqb a b) eqn:E; [left; apply entry_eqb_eq; auto|right; apply entry_eqb_neq; auto]. Defined.
Lemma remove_perm : forall ty l c cs ds, NoDup cs -> Permutation cs ds ->
  Permutation (rot_remove (matches (Some ty) l c) [] cs) (filter (fun i => negb (entry_eqb (mkEntry ty l c) i)) ds).
Proof.
  intros ty l c cs ds ND P.
  assert (F : Permutation (filter (fun i => negb (entry_eqb (mkEntry ty l c) i)) cs) (filter (fun i => negb (entry_eqb (mkEntry ty l c) i)) ds)).
  { clear ND. set (f := fun i => negb (entry_eqb (mkEntry ty l c) i)). clearbody f. induction P; cbn [filter]; auto.
    - destruct (f x); auto.
    - destruct (f x), (f y); auto. apply perm_swap.
    - eapply perm_trans; eauto. }
  eapply Permutation_trans; [|exact F]. destruct (in_dec entry_dec (mkEntry ty l c) cs) as [I|NI].
  - apply in_split in I. destruct I as (a & b & ->). pose proof (NoDup_remove_2 _ _ _ ND) as NI. rewrite in_app_iff in NI.
    rewrite rot_present by tauto. rewrite filter_app. cbn [filter]. rewrite (proj2 (entry_eqb_eq _ _) eq_refl). cbn [negb]. rewrite !filter_absent by tauto. apply Permutation_app_comm.
  - rewrite rot_absent, filter_absent by auto. auto.
Qed.

Definition run_from (os : list hop) (s : estate) := run_ops os s.
Lemma existsb_absent : forall e l, ~ In e l -> existsb (entry_eqb e) l = false.
Proof.
  intros e l NI. apply not_true_is_false. intros X. apply existsb_exists in X. destruct X as (x & I & E). apply entry_eqb_eq in E. subst. auto.
Qed.
Lemma history_perm : forall os s q r rd, einv s q -> (forall n, contents s (q n) (r n)) -> (forall n, Permutation (r n) (rd n)) -> (forall n, NoDup (r n)) ->
  every no_duplicate rd os -> exists s' q' r', run_ops os s = Ok tt s' /\ einv s' q' /\ (forall n, contents s' (q' n) (r' n)) /\
    (forall n, Permutation (r' n) (meaning os rd n)) /\ (forall n, NoDup (r' n)).
Proof.
  induction os as [|o os]; intros s q r rd V C P ND EV.
  - exists s, q, r. auto.
  - destruct EV as [E EV].
    assert (H : match o with HAdd _ _ _ _ | HRemove _ _ _ _ => True | _ => False end) by (destruct o; auto).
    destruct (run_op_contents o s q r V C H) as (s1 & q1 & A & V1 & C1 & _).
    cbn [run_ops]. rewrite (rbind_ok _ _ _ _ _ _ _ _ A). cbn [meaning fold_left]. apply (IHos s1 q1 (cmeans r o) (means rd o)); auto.
    + intros m. destruct o as [n ty l c|n ty l c| | | | |]; try destruct H; cbn [cmeans means no_duplicate] in *.
      * destruct (Nat.eqb m n) eqn:Em; cbn [andb]; auto. rewrite existsb_absent by auto. cbn [negb]. apply Permutation_app_tail. auto.
      * destruct ty as [ty|]; [|congruence]. destruct (Nat.eqb m n); auto. apply remove_perm; auto.
    + intros m. destruct o as [n ty l c|n ty l c| | | | |]; try destruct H; cbn [cmeans no_duplicate] in *.
      * destruct (Nat.eqb m n) eqn:Em; auto. apply Nat.eqb_eq in Em. subst. apply NoDup_app; auto; [repeat constructor; auto|].
        intros x I [<-|[]]. apply E. eapply Permutation_in; [apply P|]. auto.
      * destruct ty as [ty|]; [|congruence]. destruct (Nat.eqb m n); auto.
        assert (PP := remove_perm ty l c (r m) (r m) (ND m) (Permutation_refl _)). apply Permutation_sym in PP. eapply Permutation_NoDup; [exact PP|]. apply NoDup_filter; auto.
Qed.
Lemma history_order : forall os s q r, einv s q -> (forall n, contents s (q n) (r n)) -> (forall n, NoDup (r n)) ->
  every no_duplicate r os -> every oldest r os -> exists s' q', run_ops os s = Ok tt s' /\ einv s' q' /\ (forall n, contents s' (q' n) (meaning os r n)).
Proof.
  induction os as [|o os]; intros s q r V C ND EV OL.
  - exists s, q. auto.
  - destruct EV as [E EV]. destruct OL as [O OL].
    assert (H : match o with HAdd _ _ _ _ | HRemove _ _ _ _ => True | _ => False end) by (destruct o; auto).
    destruct (run_op_contents o s q r V C H) as (s1 & q1 & A & V1 & C1 & _).
    cbn [run_ops]. rewrite (rbind_ok _ _ _ _ _ _ _ _ A). cbn [meaning fold_left].
    assert (SAME : forall m, cmeans r o m = means r o m).
    { intros m. destruct o as [n ty l c|n ty l c| | | | |]; try destruct H; cbn [cmeans means no_duplicate oldest] in *.
      - destruct (Nat.eqb m n) eqn:Em; cbn [andb]; auto. rewrite existsb_absent by auto. auto.
      - destruct ty as [ty|]; [|congruence]. destruct (Nat.eqb m n) eqn:Em; auto. apply Nat.eqb_eq in Em. subst.
        destruct (in_dec entry_dec (mkEntry ty l c) (r n)) as [I|NI].
        + destruct (O I) as [rest ER]. pose proof (ND n) as NDn. rewrite ER in *. inversion NDn; subst.
          pose proof (rot_present ty l c [] [] rest (fun x => x)) as RP. cbn [app] in RP. rewrite app_nil_r in RP. rewrite RP. cbn [filter]. rewrite (proj2 (entry_eqb_eq _ _) eq_refl). cbn [negb]. rewrite filter_absent; auto.
        + rewrite rot_absent, filter_absent; auto. }
    apply (IHos s1 q1 (means r o)); auto.
    + intros m. rewrite <- SAME. auto.
    + intros m. destruct o as [n ty l c|n ty l c| | | | |]; try destruct H; cbn [means no_duplicate] in *.
      * destruct (Nat.eqb m n) eqn:Em; cbn [andb]; auto. apply Nat.eqb_eq in Em. subst. rewrite existsb_absent by auto. cbn [negb]. apply NoDup_app; auto; [repeat constructor; auto|].
        intros x I [<-|[]]. auto.
      * destruct ty as [ty|]; [|congruence]. destruct (Nat.eqb m n); auto. apply NoDup_filter; auto.
Qed.

Lemma registrations_kept : forall p f h a ev os, every no_duplicate no_registrations os ->
  exists s, run_ops os (blank p f h a ev) = Ok tt s /\ forall n, exists l, listed s n l /\ Permutation l (meaning os no_registrations n).
Proof.
  intros p f h a ev os EV. destruct (history_perm os (blank p f h a ev) (fun _ => []) (fun _ => []) no_registrations) as (s & q & r & A & V & C & P & _); auto.
  - apply einv_blank.
  - intros; reflexivity.
  - intros; constructor.
  - exists s. split; auto. intros n. exists (r n). split; auto. apply (listed_iff s q n); auto.
Qed.
Lemma registrations_in_order : forall p f h a ev os, every no_duplicate no_registrations os -> every oldest no_registrations os ->
  exists s, run_ops os (blank p f h a ev) = Ok tt s /\ forall n, listed s n (meaning os no_registrations n).
Proof.
  intros p f h a ev os EV OL. destruct (history_order os (blank p f h a ev) (fun _ => []) no_registrations) as (s & q & A & V & C); auto.
  - apply einv_blank.
  - intros; reflexivity.
  - intros; constructor.
  - exists s. split; auto. intros n. apply (listed_iff s q n); auto.
Qed.

(** * Delivery *)
Lemma calls_of_app : forall a b, calls_of (a ++ b) = calls_of b ++ calls_of a.
Proof. induction a as [|i a]; intros b; cbn [app calls_of]; [rewrite app_nil_r; auto|]. rewrite IHa. destruct i; auto. rewrite app_assoc. auto. Qed.
Lemma deliver_facts : forall behave calls halt seen, exists new rest,
  deliver behave calls halt seen = new ++ seen /\ calls = calls_of new ++ rest /\
  (forall i, In i new -> exists n l ph, i = Called n l ph) /\
  (forall later i earlier, new = later ++ i :: earlier -> asks behave HStopNow (i :: earlier ++ seen) = true -> later = []) /\
  (forall later n l ph earlier, new = later ++ Called n l ph :: earlier -> asks behave HStop (Called n l ph :: earlier ++ seen) = true ->
     forall n' l' ph', In (Called n' l' ph') later -> n' = n /\ ph' = ph) /\
  (forall n' l' ph' more, rest = (n', ph', l') :: more ->
     (exists i earlier, new = i :: earlier /\ asks behave HStopNow (new ++ seen) = true) \/
     (exists later n l ph earlier, new = later ++ Called n l ph :: earlier /\ asks behave HStop (Called n l ph :: earlier ++ seen) = true /\ (n, ph) <> (n', ph')) \/
     (exists k, halt = Some k /\ k <> (n', ph'))) /\
  (forall k, halt = Some k -> forall n' l' ph', In (Called n' l' ph') new -> k = (n', ph')).
Proof.
  intros behave. induction calls as [|[[n ph] l] calls]; intros halt seen.
  - exists [], []. cbn [deliver app calls_of]. split; auto. split; auto. split; [intros i []|]. split; [intros later i earlier E; destruct later; discriminate|].
    split; [intros later ? ? ? earlier E; destruct later; discriminate|]. split; [intros; discriminate|]. intros k _ n' l' ph' [].
  - cbn [deliver]. destruct (match halt with Some (n', ph') => negb (Nat.eqb n n' && phase_eqb ph ph') | None => false end) eqn:H.
    + exists [], ((n, ph, l) :: calls). cbn [app calls_of]. split; auto. split; auto. split; [intros i []|]. split; [intros later i earlier E; destruct later; discriminate|].
      split; [intros later ? ? ? earlier E; destruct later; discriminate|]. split; [|intros k _ n' l' ph' []].
      intros n' l' ph' more E. injection E as <- <- <- <-. right. right. destruct halt as [[n' ph']|]; [|discriminate]. exists (n', ph'). split; auto.
      intros X. injection X as <- <-. rewrite Nat.eqb_refl, phase_eqb_refl in H. discriminate.
    + set (seen1 := Called n l ph :: seen).
      assert (HK : forall k, halt = Some k -> k = (n, ph)).
      { intros [n' ph'] ->. apply negb_false_iff, andb_true_iff in H. destruct H as [A B]. apply Nat.eqb_eq in A. apply phase_eqb_eq in B. congruence. }
      destruct (asks behave HStopNow seen1) eqn:N.
      * exists [Called n l ph], calls. cbn [app calls_of]. split; auto. split; auto. split; [intros i [<-|[]]; eauto|]. split; [|split; [|split]].
        -- intros later i earlier E _. destruct later as [|j later]; auto. destruct later; discriminate.
        -- intros later n0 l0 ph0 earlier E _. destruct later as [|j later]; [intros ? ? ? []|]. destruct later; discriminate.
        -- intros n' l' ph' more E. left. eauto.
        -- intros k K n' l' ph' [X|[]]. injection X as <- <- <-. auto.
      * destruct (IHcalls (if asks behave HStop seen1 then Some (n, ph) else halt) seen1) as (new & rest & D & CL & ON & NW & ST & RE & HA).
        exists (new ++ [Called n l ph]), rest. rewrite <- !app_assoc. cbn [app]. split; auto. split; [rewrite calls_of_app, <- app_assoc, CL; auto|].
        split; [intros i I; apply in_app_iff in I; destruct I as [I|[<-|[]]]; eauto|].
        assert (SPLIT : forall later i earlier, new ++ [Called n l ph] = later ++ i :: earlier ->
           (later = new /\ i = Called n l ph /\ earlier = []) \/ (exists e', earlier = e' ++ [Called n l ph] /\ new = later ++ i :: e')).
        { intros later i earlier E. destruct earlier as [|j e] using rev_ind.
          - apply app_inj_tail in E. destruct E as [-> <-]. auto.
          - clear IHe. right. exists e. assert (E' : new ++ [Called n l ph] = (later ++ i :: e) ++ [j]) by (rewrite <- app_assoc; auto). apply app_inj_tail in E'. destruct E' as [-> <-]. auto. }
        split; [|split; [|split]].
        -- intros later i earlier E AK. apply SPLIT in E. destruct E as [(-> & -> & ->)|(e' & -> & E)].
           ++ cbn [app] in AK. fold seen1 in AK. congruence.
           ++ eapply NW; eauto. rewrite <- app_assoc in AK. exact AK.
        -- intros later n0 l0 ph0 earlier E AK n' l' ph' I. apply SPLIT in E. destruct E as [(-> & E & ->)|(e' & -> & E)].
           ++ injection E as -> -> ->. cbn [app] in AK. fold seen1 in AK. rewrite AK in HA. specialize (HA _ eq_refl _ _ _ I). injection HA as -> ->. auto.
           ++ rewrite <- app_assoc in AK. eapply (ST later n0 l0 ph0 e' E AK); eauto.
        -- intros n' l' ph' more E. destruct (RE _ _ _ _ E) as [(i & e & EN & AK)|[(later & n0 & l0 & ph0 & e & EN & AK & NE)|(k & HK' & NE)]].
           ++ left. exists i, (e ++ [Called n l ph]). split; [rewrite EN; auto|exact AK].
           ++ right. left. exists later, n0, l0, ph0, (e ++ [Called n l ph]). rewrite EN, <- !app_assoc. auto.
           ++ destruct (asks behave HStop seen1) eqn:AS.
              ** injection HK' as <-. right. left. exists new, n, l, ph, []. auto.
              ** right. right. eauto.
        -- intros k K n' l' ph' I. apply in_app_iff in I. destruct I as [I|[X|[]]].
           ++ pose proof (HK k K) as ->. destruct (asks behave HStop seen1); eapply HA; eauto.
           ++ injection X as <- <- <-. auto.
Qed.

Lemma deliver_stops : forall behave calls seen, exists new rest,
  deliver behave calls None seen = new ++ seen /\ calls = calls_of new ++ rest /\
  (forall later i earlier, new = later ++ i :: earlier -> asks behave HStopNow (i :: earlier ++ seen) = true -> later = []) /\
  (forall later n l ph earlier, new = later ++ Called n l ph :: earlier -> asks behave HStop (Called n l ph :: earlier ++ seen) = true ->
     forall n' l' ph', In (Called n' l' ph') later -> n' = n /\ ph' = ph) /\
  (forall n' l' ph' more, rest = (n', ph', l') :: more ->
     (exists i earlier, new = i :: earlier /\ asks behave HStopNow (new ++ seen) = true) \/
     (exists later n l ph earlier, new = later ++ Called n l ph :: earlier /\ asks behave HStop (Called n l ph :: earlier ++ seen) = true /\ (n, ph) <> (n', ph'))).
Proof.
  intros behave calls seen. destruct (deliver_facts behave calls None seen) as (new & rest & A & B & _ & D & E & F & _). exists new, rest.
  repeat (split; [assumption|]). intros n' l' ph' more R. destruct (F _ _ _ _ R) as [X|[X|(k & K & _)]]; auto. discriminate.
Qed.
Lemma deliver_all : forall behave calls seen, (forall log, asks behave HStop log = false) -> (forall log, asks behave HStopNow log = false) ->
  exists new, deliver behave calls None seen = new ++ seen /\ calls_of new = calls.
Proof.
  intros behave calls seen S N. destruct (deliver_facts behave calls None seen) as (new & rest & A & B & _ & _ & _ & F & _). exists new. split; auto.
  destruct rest as [|[[n ph] l] rest]; [rewrite app_nil_r in B; auto|].
  destruct (F n l ph rest eq_refl) as [(i & e & _ & X)|[(later & n0 & l0 & ph0 & e & _ & X & _)|(k & K & _)]]; [rewrite N in X|rewrite S in X|]; discriminate.
Qed.

(** * A listener that adds a listener on every call *)
Definition ping : bytes := [112; 105; 110; 103]%N.
Definition adder : list item -> list hop := fun _ => [HAdd 1 ping 7 false].
Lemma add_forever : forall fuel s q l1 x, einv s q -> q 1 = l1 ++ [x] -> es_info s x = Some (mkEntry ping 7 false) ->
  ev_type (es_ev s) = Some ping -> ev_stop_now (es_ev s) = false -> ev_in_dispatch (es_ev s) = true -> ev_target (es_ev s) = Some 1 -> ev_current (es_ev s) = Some 1 ->
  target_loop adder fuel 1 AtTarget x s = Bad OutOfFuel.
Proof.
  induction fuel as [|f]; intros s q l1 x V Q I T N D TA CU; [reflexivity|]. cbn [target_loop].
  rewrite (rbind_ok _ _ _ _ _ _ _ _ (load_info_ok _ _ _ I)). unfold bind at 1, getst.
  assert (AP : has_type (es_ev s) (mkEntry ping 7 false) && applies AtTarget (es_ev s) (mkEntry ping 7 false) = true).
  { unfold has_type, applies. rewrite T, TA, CU. cbn. rewrite andb_false_r. auto. }
  rewrite AP. cbn [e_listener].
  set (s0 := set_log (cons (Called 1 7 AtTarget)) s). assert (V0 : einv s0 q) by (eapply einv_ext; eauto).
  destruct (add_listener_ok s0 q 1 ping 7 false V0) as (s1 & A & V1 & R & I1 & I2).
  assert (CH : call_handler adder 1 7 AtTarget s = Ok tt s1). { unfold call_handler, adder. cbn [run_ops run_op]. fold s0. rewrite (rbind_ok _ _ _ _ _ _ _ _ A). auto. }
  set (e := es_fresh s0) in *. assert (EV : es_ev s1 = es_ev s) by apply (rs_ev _ _ R).
  assert (Q1 : upd q 1 (q 1 ++ [e]) 1 = l1 ++ x :: [e]) by (rewrite upd_same, Q, <- app_assoc; auto).
  destruct (still_there_ok s1 _ 1 x V1) as (b & B & BT). rewrite Q1 in BT. assert (b = true) by (apply BT; apply in_app_iff; simpl; auto). subst b.
  assert (STEP : (call_handler adder 1 7 AtTarget ;;; s1 <- getst ;; (if ev_stop_now (es_ev s1) then ret false else still_there 1 x)) s = Ok true s1).
  { rewrite (rbind_ok _ _ _ _ _ _ _ _ CH). unfold bind, getst. rewrite EV, N. auto. }
  unfold getst in STEP. rewrite (rbind_ok _ _ _ _ _ _ _ _ STEP). cbn [negb].
  pose proof (iv_ring _ _ V1 1) as RG. rewrite Q1 in RG. destruct (qring_next _ _ _ _ RG) as (c & HC & NC).
  rewrite (rbind_ok _ _ _ _ _ _ _ _ (load_next_ok _ _ _ HC)). rewrite NC. unfold bind, get_head. rewrite (iv_head _ _ V1), Q1. cbn [app hd].
  assert (NE : exists a, hd_error (l1 ++ [x; e]) = Some a /\ a <> e).
  { pose proof (qring_nodup _ _ RG) as ND. destruct l1 as [|a l1]; cbn [app hd_error].
    - exists x. split; auto. intros ->. inversion ND; subst. apply H1; simpl; auto.
    - exists a. split; auto. intros ->. inversion ND; subst. apply H1. apply in_app_iff; simpl; auto. }
  destruct NE as (a & -> & NE). cbn [opt_eqb]. apply not_eq_sym, Nat.eqb_neq in NE. rewrite NE.
  apply (IHf s1 (upd q 1 (q 1 ++ [e])) (l1 ++ [x]) e); auto; try (rewrite EV; auto; fail). rewrite Q1, <- app_assoc. auto.
Qed.

(** * Witnesses *)
Definition outcome (behave : list item -> list hop) (fuel : nat) (os : list hop) (w : estate) (et : nat) : option (bool * list item) :=
  match run_ops os w with
  | Ok _ s => match node_dispatch behave fuel et s with Ok b s' => Some (b, es_log s') | _ => None end
  | _ => None
  end.
Lemma outcome_ok : forall behave fuel os w et b log, outcome behave fuel os w et = Some (b, log) ->
  exists s s', run_ops os w = Ok tt s /\ node_dispatch behave fuel et s = Ok b s' /\ es_log s' = log.
Proof.
  intros behave fuel os w et b log H. unfold outcome in H. destruct (run_ops os w) as [[] s| |]; try discriminate.
  destruct (node_dispatch behave fuel et s) as [b' s'| |] eqn:E; try discriminate. injection H as <- <-. exists s, s'. auto.
Qed.
(** Node 1 is the root, 2 a child, 3 a grandchild; 5 a fragment hosted by 2. *)
Definition small_parent (n : nat) : option nat := match n with 2 => Some 1 | 3 => Some 2 | 6 => Some 5 | _ => None end.
Definition small_frag (n : nat) : bool := Nat.eqb n 5.
Definition small_host (n : nat) : option nat := match n with 5 => Some 2 | _ => None end.
Definition small (actions bubble cancelable : bool) : estate := blank small_parent small_frag small_host actions (new_event ping bubble cancelable).
Definition on (n l : nat) : hop := HAdd n ping l false.
Definition off (n l : nat) : hop := HRemove n (Some ping) l false.
(** The program of listener [l] is [os]; the others do nothing. *)
Definition only (l : nat) (os : list hop) : list item -> list hop := fun seen =>
  match seen with Called _ l' _ :: _ => if Nat.eqb l l' then os else [] | _ => [] end.
Definition nothing : list item -> list hop := fun _ => [].

(** * From a history to the calls *)
Lemma run_ops_rest : forall os s s' q, einv s q -> (forall o, In o os -> match o with HAdd _ _ _ _ | HRemove _ _ _ _ => True | _ => False end) ->
  run_ops os s = Ok tt s' -> rest_same s s'.
Proof.
  induction os as [|o os]; intros s s' q V H E; cbn [run_ops] in E.
  - unfold ret in E. injection E as <-. constructor; auto.
  - assert (H1 := H o (or_introl eq_refl)).
    assert (ONE : exists s1 q1, run_op o s = Ok tt s1 /\ einv s1 q1 /\ rest_same s s1).
    { destruct o as [n ty l c|n ty l c| | | | |]; try destruct H1.
      - destruct (add_listener_ok s q n ty l c V) as (s1 & A & B & R & _). eauto.
      - destruct (remove_listener_ok s q n ty l c V) as (s1 & A & B & R & _). eauto. }
    destruct ONE as (s1 & q1 & A & V1 & R1). rewrite (rbind_ok _ _ _ _ _ _ _ _ A) in E.
    destruct (IHos s1 s' q1 V1 (fun o I => H o (or_intror I)) E) as [A1 A2 A3 A4 A5 A6]. destruct R1 as [B1 B2 B3 B4 B5 B6]. constructor; congruence.
Qed.
Lemma run_ops_reach : forall os s s', ereach s -> run_ops os s = Ok tt s' -> ereach s'.
Proof.
  induction os as [|o os]; intros s s' R E; cbn [run_ops] in E.
  - unfold ret in E. injection E as <-. auto.
  - unfold bind in E. destruct (run_op o s) as [[] s1| |] eqn:O; try discriminate. eapply IHos; [|exact E]. eapply er_op; eauto.
Qed.
Lemma every_edits : forall os r, every no_duplicate r os -> forall o, In o os -> match o with HAdd _ _ _ _ | HRemove _ _ _ _ => True | _ => False end.
Proof. induction os as [|a os]; intros r EV o I; [destruct I|]. destruct EV as [E EV]. destruct I as [->|I]; [destruct o; auto|]. eapply IHos; eauto. Qed.
Lemma calls_closing : forall a b c, calls_of (closing a b c) = [].
Proof. intros [|] [|] [|]; reflexivity. Qed.
Lemma calls_opening : forall s, calls_of (opening s) = [].
Proof. intros s. unfold opening. destruct (es_actions s); reflexivity. Qed.

Lemma dispatch_facts : forall behave s ty et path reg, quiet behave -> ereach s -> pristine (es_ev s) ty -> (forall n, listed s n (reg n)) ->
  above (es_parent s) (es_frag s) (es_host s) et path -> (es_parent s et = None -> es_frag s et = true -> es_host s et = None) ->
  exists bound, forall fuel, bound <= fuel -> exists success s' closing new opening rest,
    node_dispatch behave fuel et s = Ok success s' /\
    es_log s' = closing ++ new ++ opening ++ es_log s /\ calls_of closing = [] /\ calls_of opening = [] /\
    plan reg ty (ev_bubble (es_ev s)) et path = calls_of new ++ rest /\
    (forall later i earlier, new = later ++ i :: earlier -> asks behave HStopNow (i :: earlier ++ opening ++ es_log s) = true -> later = []) /\
    (forall later n l ph earlier, new = later ++ Called n l ph :: earlier -> asks behave HStop (Called n l ph :: earlier ++ opening ++ es_log s) = true ->
       forall n' l' ph', In (Called n' l' ph') later -> n' = n /\ ph' = ph) /\
    (forall n' l' ph' more, rest = (n', ph', l') :: more ->
       (exists i earlier, new = i :: earlier /\ asks behave HStopNow (new ++ opening ++ es_log s) = true) \/
       (exists later n l ph earlier, new = later ++ Called n l ph :: earlier /\ asks behave HStop (Called n l ph :: earlier ++ opening ++ es_log s) = true /\ (n, ph) <> (n', ph'))).
Proof.
  intros behave s ty et path reg Q R P L A NF. destruct (dispatch_quiet behave s ty et path reg Q R P L A NF) as [bound H]. exists bound. intros fuel FU.
  destruct (H fuel FU) as (s' & new & D & E & LG & _). destruct (deliver_stops behave (plan reg ty (ev_bubble (es_ev s)) et path) (opening s ++ es_log s)) as (new' & rest & D1 & D2 & D3 & D4 & D5).
  rewrite D1 in E. apply app_inv_tail in E. subst new'. eexists. exists s'. eexists. exists new, (opening s), rest. split; [exact D|]. split; [exact LG|].
  split; [apply calls_closing|]. split; [apply calls_opening|]. auto.
Qed.
Lemma dispatch_plan : forall behave s ty et path reg, quiet behave -> (forall log, asks behave HStop log = false) -> (forall log, asks behave HStopNow log = false) ->
  ereach s -> pristine (es_ev s) ty -> (forall n, listed s n (reg n)) ->
  above (es_parent s) (es_frag s) (es_host s) et path -> (es_parent s et = None -> es_frag s et = true -> es_host s et = None) ->
  exists bound, forall fuel, bound <= fuel -> exists success s' new, node_dispatch behave fuel et s = Ok success s' /\
    es_log s' = new ++ es_log s /\ calls_of new = plan reg ty (ev_bubble (es_ev s)) et path.
Proof.
  intros behave s ty et path reg Q S N R P L A NF. destruct (dispatch_quiet behave s ty et path reg Q R P L A NF) as [bound H]. exists bound. intros fuel FU.
  destruct (H fuel FU) as (s' & new & D & E & LG & _). destruct (deliver_all behave (plan reg ty (ev_bubble (es_ev s)) et path) (opening s ++ es_log s) S N) as (new' & D1 & D2).
  rewrite D1 in E. apply app_inv_tail in E. subst new'. eexists. exists s'. eexists. split; [exact D|]. split.
  - rewrite LG. rewrite (app_assoc new), app_assoc. reflexivity.
  - rewrite !calls_of_app, calls_closing, calls_opening. rewrite app_nil_r. auto.
Qed.
Lemma history_calls : forall p f h a ev os ty et path behave, every no_duplicate no_registrations os -> every oldest no_registrations os ->
  pristine ev ty -> above p f h et path -> (p et = None -> f et = true -> h et = None) ->
  quiet behave -> (forall log, asks behave HStop log = false) -> (forall log, asks behave HStopNow log = false) ->
  exists s bound, run_ops os (blank p f h a ev) = Ok tt s /\ forall fuel, bound <= fuel -> exists success s',
    node_dispatch behave fuel et s = Ok success s' /\ calls_of (es_log s') = plan (meaning os no_registrations) ty (ev_bubble ev) et path.
Proof.
  intros p f h a ev os ty et path behave EV OL PR AB NF Q S N. destruct (registrations_in_order p f h a ev os EV OL) as (s & E & LI).
  pose proof (run_ops_rest os _ s _ (einv_blank p f h a ev) (every_edits os _ EV) E) as [R1 R2 R3 R4 R5 R6]. cbn [blank es_parent es_frag es_host es_ev es_log] in *.
  destruct (dispatch_plan behave s ty et path (meaning os no_registrations) Q S N) as [bound H]; auto.
  - eapply run_ops_reach; [apply er_blank|exact E].
  - rewrite R4; auto.
  - rewrite R1, R2, R3; auto.
  - rewrite R1, R2, R3; auto.
  - exists s, bound. split; auto. intros fuel FU. destruct (H fuel FU) as (b & s' & new & D & L & C). exists b, s'. split; auto. rewrite L, R6, app_nil_r, C, R4. auto.
Qed.
Lemma dispatch_result : forall behave s ty et path reg, quiet behave -> ereach s -> pristine (es_ev s) ty -> (forall n, listed s n (reg n)) ->
  above (es_parent s) (es_frag s) (es_host s) et path -> (es_parent s et = None -> es_frag s et = true -> es_host s et = None) ->
  exists bound, forall fuel, bound <= fuel -> exists s' closing new opening,
    node_dispatch behave fuel et s = Ok (negb (asked behave HPrevent new (opening ++ es_log s))) s' /\
    es_log s' = closing ++ new ++ opening ++ es_log s /\
    (forall i, In i new -> exists n l ph, i = Called n l ph) /\
    opening = (if es_actions s then [Acted ActStarted] else []) /\
    closing = (if es_actions s then Acted ActFinished ::
                 (if asked behave HStop new (opening ++ es_log s) || asked behave HStopNow new (opening ++ es_log s) then []
                  else [Acted (if asked behave HPrevent new (opening ++ es_log s) then ActPrevented else ActEnd)])
               else []).
Proof.
  intros behave s ty et path reg Q R P L A NF. destruct (dispatch_quiet behave s ty et path reg Q R P L A NF) as [bound H]. exists bound. intros fuel FU.
  destruct (H fuel FU) as (s' & new & D & E & LG & _). destruct (deliver_facts behave (plan reg ty (ev_bubble (es_ev s)) et path) None (opening s ++ es_log s)) as (new' & rest & D1 & _ & ON & _).
  rewrite D1 in E. apply app_inv_tail in E. subst new'. exists s'. eexists. exists new, (opening s). split; [exact D|]. split; [exact LG|].
  split; auto.
Qed.
Lemma never_again : forall behave behave2 fuel fuel2 et et2 s b s', ereach s -> node_dispatch behave fuel et s = Ok b s' ->
  node_dispatch behave2 fuel2 et2 s' = Exc DISPATCH_REQUEST_ERR s'.
Proof.
  intros behave behave2 fuel fuel2 et et2 s b s' R D. destruct (ereach_inv s R) as [q V]. pose proof (node_dispatch_safe behave fuel et s q V) as H. rewrite D in H.
  destruct H as (q' & _ & ID). unfold node_dispatch, bind at 1, getst. rewrite ID. reflexivity.
Qed.
Lemma dispatch_no_crash : forall behave fuel et s, ereach s ->
  match node_dispatch behave fuel et s with
  | Ok _ s' => ereach s'
  | Exc e _ => (e = DISPATCH_REQUEST_ERR /\ ev_in_dispatch (es_ev s) = true) \/ (e = UNSPECIFIED_EVENT_TYPE_ERR /\ ev_type (es_ev s) = None)
  | Bad b => b = OutOfFuel
  end.
Proof.
  intros behave fuel et s R. destruct (ereach_inv s R) as [q V]. pose proof (node_dispatch_safe behave fuel et s q V) as H.
  destruct (node_dispatch behave fuel et s) as [b s'|e s'|b] eqn:E; auto.
  - eapply er_dispatch; eauto.
  - destruct H as [(A & B & _)|H]; auto.
Qed.
Lemma client_calls_no_crash : forall o s, ereach s -> match o with HDispatch _ => False | _ => True end -> exists s', run_op o s = Ok tt s' /\ ereach s'.
Proof.
  intros o s R H. destruct (ereach_inv s R) as [q V].
  assert (G : exists s' , run_op o s = Ok tt s').
  { destruct o; try destruct H; cbn [run_op]; try (eexists; reflexivity).
    - destruct (add_listener_ok s q n ty l capture V) as (s' & A & _). eauto.
    - destruct (remove_listener_ok s q n ty l capture V) as (s' & A & _). eauto. }
  destruct G as [s' E]. exists s'. split; auto. eapply er_op; eauto.
Qed.
Lemma adder_never_ends : exists s, run_ops [on 1 7] (small false true true) = Ok tt s /\ forall fuel, node_dispatch adder fuel 1 s = Bad OutOfFuel.
Proof.
  destruct (registrations_in_order small_parent small_frag small_host false (new_event ping true true) [on 1 7]) as (s & E & _).
  { cbn. auto. } { cbn. auto. }
  exists s. split; [exact E|]. intros fuel.
  pose proof (einv_blank small_parent small_frag small_host false (new_event ping true true)) as V0.
  destruct (add_listener_ok _ _ 1 ping 7 false V0) as (s1 & A & V & R & I1 & I2).
  assert (s1 = s). { cbn [run_ops run_op on] in E. rewrite (rbind_ok _ _ _ _ _ _ _ _ A) in E. unfold ret in E. congruence. } subst s1.
  destruct R as [R1 R2 R3 R4 R5 R6]. cbn [blank es_parent es_frag es_host es_ev es_log es_fresh es_actions] in *.
  unfold node_dispatch, bind at 1, getst at 1. rewrite R4. cbn [new_event ev_in_dispatch ev_type]. unfold bind at 1, modst at 1.
  rewrite R1. cbn [small_parent]. assert (CN : forall s2, collect fuel None s2 = Ok [] s2) by (intros; destruct fuel; auto).
  rewrite (rbind_ok _ _ _ _ _ _ _ _ (CN _)). unfold bind at 1, modst at 1. set (s2 := set_ev _ (set_ev _ s)).
  assert (AC : act ActStarted s2 = Ok tt s2) by (unfold act; change (es_actions s2) with (es_actions s); rewrite R5; auto).
  rewrite (rbind_ok _ _ _ _ _ _ _ _ AC). cbn [rev visit]. unfold bind at 1, ret at 1. unfold bind at 1. unfold bind at 1, modst at 1. set (s3 := set_ev _ s2).
  assert (TD : target_dispatch adder fuel 1 AtTarget s3 = Bad OutOfFuel).
  { unfold target_dispatch, bind at 1, get_head. change (es_head s3) with (es_head s). rewrite (iv_head _ _ V), upd_same. cbn [app hd_error].
    unfold bind, modst. set (s4 := set_ev _ s3).
    assert (V4 : einv s4 (upd (fun _ : nat => []) 1 ([] ++ [0]))) by (eapply einv_ext; eauto).
    apply (add_forever fuel s4 _ [] 0 V4); auto.
    all: change (es_ev s4) with (ev_set_current 1 (ev_set_current 1 (ev_set_phase AtTarget (ev_set_phase Capturing (ev_set_target 1 (ev_set_in_dispatch (es_ev s))))))); rewrite R4; reflexivity. }
  unfold bind at 1. rewrite TD. reflexivity.
Qed.
