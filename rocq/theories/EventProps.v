(** C39 .. C44: event listeners and dispatch. *)
From Coq Require Import List Arith NArith Bool Permutation.
From Verif Require Import Base RingModel RingSpec EventModel EventSpec EventHistory.
Import ListNotations.

(** * C39: listeners are called once each, in registration order *)
(** Missing in the partial theorems: duplicates, removal with no type, and the
    order after removals other than of the oldest listener; these are refuted
    below. *)
Theorem C39_registrations_partial : forall p f h a ev os, every no_duplicate no_registrations os ->
  exists s, run_ops os (blank p f h a ev) = Ok tt s /\ forall n, exists l, listed s n l /\ Permutation l (meaning os no_registrations n).
Proof. exact registrations_kept. Qed.

Theorem C39_calls_in_order_partial : forall p f h a ev os ty et path behave, every no_duplicate no_registrations os -> every oldest no_registrations os ->
  pristine ev ty -> above p f h et path -> (p et = None -> f et = true -> h et = None) ->
  quiet behave -> (forall log, asks behave HStop log = false) -> (forall log, asks behave HStopNow log = false) ->
  exists s bound, run_ops os (blank p f h a ev) = Ok tt s /\ forall fuel, bound <= fuel -> exists success s',
    node_dispatch behave fuel et s = Ok success s' /\ calls_of (es_log s') = plan (meaning os no_registrations) ty (ev_bubble ev) et path.
Proof. exact history_calls. Qed.

Definition busy : list hop := [on 1 10; HAdd 1 ping 20 true; on 2 11; on 3 12; HAdd 3 ping 13 true; on 1 14; off 1 10; off 2 99; HAdd 2 [1]%N 15 true; on 1 10].
Example C39_busy_is_orderly : every no_duplicate no_registrations busy /\ every oldest no_registrations busy.
Proof.
  cbn. repeat split; auto; try discriminate; try (intros [H|H]; [discriminate H|]; try destruct H as [H|H]; try discriminate H; destruct H);
  try (intros; exists [mkEntry ping 20 true; mkEntry ping 14 false]; reflexivity); try (intros H; intuition discriminate).
Qed.
Example C39_busy_calls : outcome nothing 50 busy (small false true true) 3 =
  Some (true, [Called 1 10 Bubbling; Called 1 14 Bubbling; Called 2 11 Bubbling; Called 3 13 AtTarget; Called 3 12 AtTarget; Called 1 20 Capturing]).
Proof. vm_compute. reflexivity. Qed.

(** Removing a listener changes the order of the others. *)
Theorem C39_order_refuted : exists s s', run_ops [on 1 10; on 1 11; on 1 12; off 1 11] (small false true true) = Ok tt s /\
  map e_listener (meaning [on 1 10; on 1 11; on 1 12; off 1 11] no_registrations 1) = [10; 12] /\
  node_dispatch nothing 50 1 s = Ok true s' /\ calls_of (es_log s') = [(1, AtTarget, 12); (1, AtTarget, 10)].
Proof.
  destruct (outcome_ok nothing 50 [on 1 10; on 1 11; on 1 12; off 1 11] (small false true true) 1 true [Called 1 10 AtTarget; Called 1 12 AtTarget]) as (s & s' & A & B & C).
  { vm_compute. reflexivity. } exists s, s'. split; [exact A|]. split; [vm_compute; reflexivity|]. split; [exact B|]. rewrite C. reflexivity.
Qed.
(** A listener added twice is called twice. *)
Theorem C39_duplicate_refuted : exists s s', run_ops [on 1 10; on 1 10] (small false true true) = Ok tt s /\
  map e_listener (meaning [on 1 10; on 1 10] no_registrations 1) = [10] /\
  node_dispatch nothing 50 1 s = Ok true s' /\ calls_of (es_log s') = [(1, AtTarget, 10); (1, AtTarget, 10)].
Proof.
  destruct (outcome_ok nothing 50 [on 1 10; on 1 10] (small false true true) 1 true [Called 1 10 AtTarget; Called 1 10 AtTarget]) as (s & s' & A & B & C).
  { vm_compute. reflexivity. } exists s, s'. split; [exact A|]. split; [vm_compute; reflexivity|]. split; [exact B|]. rewrite C. reflexivity.
Qed.
(** Removal without a type, documented to remove all registrations, removes one. *)
Theorem C39_remove_all_refuted : exists s s', run_ops [on 1 10; HAdd 1 ping 10 true; HRemove 1 None 10 false] (small false true true) = Ok tt s /\
  meaning [on 1 10; HAdd 1 ping 10 true; HRemove 1 None 10 false] no_registrations 1 = [] /\
  node_dispatch nothing 50 1 s = Ok true s' /\ calls_of (es_log s') = [(1, AtTarget, 10)].
Proof.
  destruct (outcome_ok nothing 50 [on 1 10; HAdd 1 ping 10 true; HRemove 1 None 10 false] (small false true true) 1 true [Called 1 10 AtTarget]) as (s & s' & A & B & C).
  { vm_compute. reflexivity. } exists s, s'. split; [exact A|]. split; [vm_compute; reflexivity|]. split; [exact B|]. rewrite C. reflexivity.
Qed.

(** * C40: listeners edited during dispatch *)
(** Whatever the listeners do, dispatch reads and writes no freed entry, follows
    no NULL pointer and fails no assertion; it can only fail to end. *)
Theorem C40_no_freed_entry_partial : forall behave fuel et s, ereach s ->
  match node_dispatch behave fuel et s with
  | Ok _ s' => ereach s'
  | Exc e _ => (e = DISPATCH_REQUEST_ERR /\ ev_in_dispatch (es_ev s) = true) \/ (e = UNSPECIFIED_EVENT_TYPE_ERR /\ ev_type (es_ev s) = None)
  | Bad b => b = OutOfFuel
  end.
Proof. exact dispatch_no_crash. Qed.
Theorem C40_client_calls_partial : forall o s, ereach s -> match o with HDispatch _ => False | _ => True end -> exists s', run_op o s = Ok tt s' /\ ereach s'.
Proof. exact client_calls_no_crash. Qed.

Definition abc : list hop := [on 1 10; on 1 11; on 1 12].
Lemma abc_case : forall behave log, outcome behave 50 abc (small false true true) 1 = Some (true, log) ->
  exists s s', run_ops abc (small false true true) = Ok tt s /\ node_dispatch behave 50 1 s = Ok true s' /\ calls_of (es_log s') = calls_of log.
Proof. intros behave log H. destruct (outcome_ok _ _ _ _ _ _ _ H) as (s & s' & A & B & C). exists s, s'. rewrite C. auto. Qed.
(** The first listener removes itself: the others are not called. *)
Theorem C40_remove_self_refuted : exists s s', run_ops abc (small false true true) = Ok tt s /\
  node_dispatch (only 10 [off 1 10]) 50 1 s = Ok true s' /\ calls_of (es_log s') = [(1, AtTarget, 10)].
Proof. apply (abc_case (only 10 [off 1 10]) [Called 1 10 AtTarget]). vm_compute. reflexivity. Qed.
(** The first removes the second: the third is not called. *)
Theorem C40_remove_next_refuted : exists s s', run_ops abc (small false true true) = Ok tt s /\
  node_dispatch (only 10 [off 1 11]) 50 1 s = Ok true s' /\ calls_of (es_log s') = [(1, AtTarget, 10)].
Proof. apply (abc_case (only 10 [off 1 11]) [Called 1 10 AtTarget]). vm_compute. reflexivity. Qed.
(** The third removes the second: the first is called twice. *)
Theorem C40_remove_previous_refuted : exists s s', run_ops abc (small false true true) = Ok tt s /\
  node_dispatch (only 12 [off 1 11]) 50 1 s = Ok true s' /\ calls_of (es_log s') = [(1, AtTarget, 10); (1, AtTarget, 11); (1, AtTarget, 12); (1, AtTarget, 10)].
Proof. apply (abc_case (only 12 [off 1 11]) [Called 1 10 AtTarget; Called 1 12 AtTarget; Called 1 11 AtTarget; Called 1 10 AtTarget]). vm_compute. reflexivity. Qed.
(** A listener that adds a listener whenever it is called: dispatch never ends. *)
Theorem C40_adding_refuted : exists s, run_ops [on 1 7] (small false true true) = Ok tt s /\ forall fuel, node_dispatch adder fuel 1 s = Bad OutOfFuel.
Proof. exact adder_never_ends. Qed.

(** * C41: the propagation path *)
(** Missing in the partial theorem: a target that is itself a hosted fragment
    (refuted), and listeners that change registrations (C40). *)
Theorem C41_path_partial : forall behave s ty et path reg, quiet behave -> (forall log, asks behave HStop log = false) -> (forall log, asks behave HStopNow log = false) ->
  ereach s -> pristine (es_ev s) ty -> (forall n, listed s n (reg n)) ->
  above (es_parent s) (es_frag s) (es_host s) et path -> (es_parent s et = None -> es_frag s et = true -> es_host s et = None) ->
  exists bound, forall fuel, bound <= fuel -> exists success s' new, node_dispatch behave fuel et s = Ok success s' /\
    es_log s' = new ++ es_log s /\ calls_of new = plan reg ty (ev_bubble (es_ev s)) et path.
Proof. exact dispatch_plan. Qed.
(** Listeners that move the target away do not change the path. *)
Example C41_moving_and_crossing :
  above small_parent small_frag small_host 6 [5; 2; 1] /\ quiet (only 20 [HMove 6 None]) /\
  outcome (only 20 [HMove 6 None]) 50 [HAdd 1 ping 20 true; on 6 10; on 5 11; on 2 12; on 1 13] (small false true true) 6 =
  Some (true, [Called 1 13 Bubbling; Called 2 12 Bubbling; Called 5 11 Bubbling; Called 6 10 AtTarget; Called 1 20 Capturing]).
Proof.
  split; [|split].
  - eapply ab_parent; [reflexivity|]. eapply ab_host; try reflexivity. eapply ab_parent; [reflexivity|]. apply ab_root; [reflexivity|discriminate].
  - intros seen o I. unfold only in I. destruct seen as [|[? l ?| |] ?]; try destruct I. destruct (Nat.eqb 20 l); [destruct I as [<-|[]]; exact Logic.I|destruct I].
  - vm_compute. reflexivity.
Qed.
(** An event dispatched on the fragment itself does not reach the host. *)
Theorem C41_fragment_target_refuted : exists s s', run_ops [on 5 11; on 2 12] (small false true true) = Ok tt s /\
  above (es_parent s) (es_frag s) (es_host s) 5 [2; 1] /\
  node_dispatch nothing 50 5 s = Ok true s' /\ calls_of (es_log s') = [(5, AtTarget, 11)] /\
  plan (meaning [on 5 11; on 2 12] no_registrations) ping true 5 [2; 1] = [(5, AtTarget, 11); (2, Bubbling, 12)].
Proof.
  destruct (outcome_ok nothing 50 [on 5 11; on 2 12] (small false true true) 5 true [Called 5 11 AtTarget]) as (s & s' & A & B & C). { vm_compute. reflexivity. }
  exists s, s'. split; [exact A|].
  pose proof (run_ops_rest [on 5 11; on 2 12] (small false true true) s _ (EventProofs.einv_blank _ _ _ _ _) ltac:(intros o [<-|[<-|[]]]; exact Logic.I) A) as R.
  split; [rewrite (EventProofs.rs_parent _ _ R), (EventProofs.rs_frag _ _ R), (EventProofs.rs_host _ _ R); cbn|].
  { eapply ab_host; try reflexivity. eapply ab_parent; [reflexivity|]. apply ab_root; [reflexivity|discriminate]. }
  split; [exact B|]. split; [rewrite C; reflexivity|vm_compute; reflexivity].
Qed.

(** * C42: stopping *)
Theorem C42_stopping_partial : forall behave s ty et path reg, quiet behave -> ereach s -> pristine (es_ev s) ty -> (forall n, listed s n (reg n)) ->
  above (es_parent s) (es_frag s) (es_host s) et path -> (es_parent s et = None -> es_frag s et = true -> es_host s et = None) ->
  exists bound, forall fuel, bound <= fuel -> exists success s' closing new opening rest,
    node_dispatch behave fuel et s = Ok success s' /\
    es_log s' = closing ++ new ++ opening ++ es_log s /\ calls_of closing = [] /\ calls_of opening = [] /\
    plan reg ty (ev_bubble (es_ev s)) et path = calls_of new ++ rest /\
    (* nothing is called after stopImmediatePropagation *)
    (forall later i earlier, new = later ++ i :: earlier -> asks behave HStopNow (i :: earlier ++ opening ++ es_log s) = true -> later = []) /\
    (* after stopPropagation only listeners of the same node and phase are *)
    (forall later n l ph earlier, new = later ++ Called n l ph :: earlier -> asks behave HStop (Called n l ph :: earlier ++ opening ++ es_log s) = true ->
       forall n' l' ph', In (Called n' l' ph') later -> n' = n /\ ph' = ph) /\
    (* and nothing else is left out *)
    (forall n' l' ph' more, rest = (n', ph', l') :: more ->
       (exists i earlier, new = i :: earlier /\ asks behave HStopNow (new ++ opening ++ es_log s) = true) \/
       (exists later n l ph earlier, new = later ++ Called n l ph :: earlier /\ asks behave HStop (Called n l ph :: earlier ++ opening ++ es_log s) = true /\ (n, ph) <> (n', ph'))).
Proof. exact dispatch_facts. Qed.
Example C42_stop : outcome (only 11 [HStop]) 50 [on 3 10; on 2 11; on 2 12; on 1 13] (small false true true) 3 =
  Some (true, [Called 2 12 Bubbling; Called 2 11 Bubbling; Called 3 10 AtTarget]).
Proof. vm_compute. reflexivity. Qed.
Example C42_stop_now : outcome (only 11 [HStopNow]) 50 [on 3 10; on 2 11; on 2 12; on 1 13] (small false true true) 3 =
  Some (true, [Called 2 11 Bubbling; Called 3 10 AtTarget]).
Proof. vm_compute. reflexivity. Qed.

(** * C43: preventing the default action *)
Theorem C43_prevent_partial : forall behave s ty et path reg, quiet behave -> ereach s -> pristine (es_ev s) ty -> (forall n, listed s n (reg n)) ->
  above (es_parent s) (es_frag s) (es_host s) et path -> (es_parent s et = None -> es_frag s et = true -> es_host s et = None) ->
  exists bound, forall fuel, bound <= fuel -> exists s' closing new opening,
    node_dispatch behave fuel et s = Ok (negb (asked behave HPrevent new (opening ++ es_log s))) s' /\
    es_log s' = closing ++ new ++ opening ++ es_log s /\
    (forall i, In i new -> exists n l ph, i = Called n l ph) /\
    opening = (if es_actions s then [Acted ActStarted] else []) /\
    closing = (if es_actions s then Acted ActFinished ::
                 (if asked behave HStop new (opening ++ es_log s) || asked behave HStopNow new (opening ++ es_log s) then []
                  else [Acted (if asked behave HPrevent new (opening ++ es_log s) then ActPrevented else ActEnd)])
               else []).
Proof. exact dispatch_result. Qed.
Example C43_prevented : outcome (only 11 [HPrevent]) 50 [on 3 10; on 2 11] (small true true true) 3 =
  Some (false, [Acted ActFinished; Acted ActPrevented; Called 2 11 Bubbling; Called 3 10 AtTarget; Acted ActStarted]).
Proof. vm_compute. reflexivity. Qed.
(** An event that cannot be cancelled is cancelled. *)
Theorem C43_not_cancelable_refuted : exists s s', run_ops [on 3 10] (small true true false) = Ok tt s /\ ev_cancelable (es_ev s) = false /\
  node_dispatch (only 10 [HPrevent]) 50 3 s = Ok false s' /\ In (Acted ActPrevented) (es_log s') /\ ~ In (Acted ActEnd) (es_log s').
Proof.
  destruct (outcome_ok (only 10 [HPrevent]) 50 [on 3 10] (small true true false) 3 false [Acted ActFinished; Acted ActPrevented; Called 3 10 AtTarget; Acted ActStarted]) as (s & s' & A & B & C). { vm_compute. reflexivity. }
  exists s, s'. split; [exact A|]. pose proof (run_ops_rest [on 3 10] (small true true false) s _ (EventProofs.einv_blank _ _ _ _ _) ltac:(intros o [<-|[]]; exact Logic.I) A) as R.
  split; [rewrite (EventProofs.rs_ev _ _ R); reflexivity|]. split; [exact B|]. rewrite C. split; [simpl; auto|]. simpl. intuition discriminate.
Qed.
(** stopPropagation alone suppresses the default action. *)
Theorem C43_stop_suppresses_refuted : exists s s', run_ops [on 3 10] (small true true true) = Ok tt s /\
  node_dispatch (only 10 [HStop]) 50 3 s = Ok true s' /\ ~ In (Acted ActEnd) (es_log s').
Proof.
  destruct (outcome_ok (only 10 [HStop]) 50 [on 3 10] (small true true true) 3 true [Acted ActFinished; Called 3 10 AtTarget; Acted ActStarted]) as (s & s' & A & B & C). { vm_compute. reflexivity. }
  exists s, s'. split; [exact A|]. split; [exact B|]. rewrite C. simpl. intuition discriminate.
Qed.

(** * C44: dispatching again *)
(** While an event is being dispatched, dispatching it fails and changes nothing
    but what the caller sees. *)
Theorem C44_refused_partial : forall behave fuel et s, ev_in_dispatch (es_ev s) = true -> node_dispatch behave fuel et s = Exc DISPATCH_REQUEST_ERR s.
Proof. intros behave fuel et s H. unfold node_dispatch, bind at 1, getst. rewrite H. reflexivity. Qed.
Example C44_listener_redispatches : outcome (only 10 [HDispatch 3]) 50 [on 3 10; on 3 11] (small false true true) 3 =
  Some (true, [Called 3 11 AtTarget; Refused; Called 3 10 AtTarget]).
Proof. vm_compute. reflexivity. Qed.
(** Once dispatched, an event can never be dispatched again. *)
Theorem C44_redispatch_refuted : forall behave behave2 fuel fuel2 et et2 s b s', ereach s -> node_dispatch behave fuel et s = Ok b s' ->
  node_dispatch behave2 fuel2 et2 s' = Exc DISPATCH_REQUEST_ERR s'.
Proof. exact never_again. Qed.
Example C44_dispatches_once : exists log, outcome nothing 50 [on 3 10] (small false true true) 3 = Some (true, log).
Proof. eexists. vm_compute. reflexivity. Qed.

Definition event_theorems :=
  (C39_registrations_partial, C39_calls_in_order_partial, C39_order_refuted, C39_duplicate_refuted, C39_remove_all_refuted,
   C40_no_freed_entry_partial, C40_client_calls_partial, C40_remove_self_refuted, C40_remove_next_refuted, C40_remove_previous_refuted, C40_adding_refuted,
   C41_path_partial, C41_fragment_target_refuted, C42_stopping_partial, C43_prevent_partial, C43_not_cancelable_refuted, C43_stop_suppresses_refuted,
   C44_refused_partial, C44_redispatch_refuted).
Print Assumptions event_theorems.
