(** Model of event listeners and dispatch: src/events/event_target.c,
    src/events/event.c and _dom_node_dispatch_event of src/core/node.c.
    Listener entries are linked by the circular list of RingModel; freed entries
    leave its heap.  Listener programs are given by a function [behave] from
    everything that has been observed so far to the calls a listener makes.
    Not modelled: dispatch of a second event from a listener; allocation
    failure; reuse of the address of a freed entry.  Strings are bytes.
    No proofs here. *)
From Coq Require Import List Arith NArith Bool.
From Verif Require Import Base RingModel.
Import ListNotations.
Local Open Scope dom_scope.

Inductive phase := Capturing | AtTarget | Bubbling.
Definition phase_eqb (a b : phase) : bool :=
  match a, b with
  | Capturing, Capturing | AtTarget, AtTarget | Bubbling, Bubbling => true
  | _, _ => false
  end.
(** include/dom/events/document_event.h: dom_default_action_phase. *)
Inductive action := ActStarted | ActPrevented | ActEnd | ActFinished.

(** What the program outside libdom sees: listener [l] called on node [n] in a
    phase, default action callbacks, a refused nested dispatch. *)
Inductive item :=
| Called (n l : nat) (ph : phase)
| Acted (a : action)
| Refused.

(** Calls a listener (or a client) makes. *)
Inductive hop :=
| HAdd (n : nat) (ty : bytes) (l : nat) (capture : bool)
| HRemove (n : nat) (ty : option bytes) (l : nat) (capture : bool)
| HStop | HStopNow | HPrevent
| HMove (n : nat) (p : option nat)
| HDispatch (n : nat).

(** struct listener_entry, event_target.h:19-24, without its links. *)
Record entry := mkEntry { e_type : bytes; e_listener : nat; e_capture : bool }.

(** struct dom_event, event.h:21-49. *)
Record event := mkEvent {
  ev_type : option bytes; ev_bubble : bool; ev_cancelable : bool;
  ev_stop : bool; ev_stop_now : bool; ev_prevent : bool; ev_in_dispatch : bool;
  ev_target : option nat; ev_current : option nat; ev_phase : phase
}.

(** The part of the world dispatch uses: the links and fields of allocated
    entries, the next entry number, [eti.listeners] of every node, the tree
    upwards, one event, whether the document has default actions, the log. *)
Record estate := mkE {
  es_ring : rheap; es_info : nat -> option entry; es_fresh : nat;
  es_head : nat -> option nat;
  es_parent : nat -> option nat; es_frag : nat -> bool; es_host : nat -> option nat;
  es_ev : event; es_actions : bool; es_log : list item
}.

Definition set_ring f (s : estate) := mkE (f (es_ring s)) (es_info s) (es_fresh s) (es_head s) (es_parent s) (es_frag s) (es_host s) (es_ev s) (es_actions s) (es_log s).
Definition set_info f (s : estate) := mkE (es_ring s) (f (es_info s)) (es_fresh s) (es_head s) (es_parent s) (es_frag s) (es_host s) (es_ev s) (es_actions s) (es_log s).
Definition set_fresh f (s : estate) := mkE (es_ring s) (es_info s) (f (es_fresh s)) (es_head s) (es_parent s) (es_frag s) (es_host s) (es_ev s) (es_actions s) (es_log s).
Definition set_head f (s : estate) := mkE (es_ring s) (es_info s) (es_fresh s) (f (es_head s)) (es_parent s) (es_frag s) (es_host s) (es_ev s) (es_actions s) (es_log s).
Definition set_parent f (s : estate) := mkE (es_ring s) (es_info s) (es_fresh s) (es_head s) (f (es_parent s)) (es_frag s) (es_host s) (es_ev s) (es_actions s) (es_log s).
Definition set_ev f (s : estate) := mkE (es_ring s) (es_info s) (es_fresh s) (es_head s) (es_parent s) (es_frag s) (es_host s) (f (es_ev s)) (es_actions s) (es_log s).
Definition set_log f (s : estate) := mkE (es_ring s) (es_info s) (es_fresh s) (es_head s) (es_parent s) (es_frag s) (es_host s) (es_ev s) (es_actions s) (f (es_log s)).

Definition upd {A} (f : nat -> A) (i : nat) (a : A) : nat -> A := fun j => if Nat.eqb j i then a else f j.

Definition ev_set_stop (e : event) := mkEvent (ev_type e) (ev_bubble e) (ev_cancelable e) true (ev_stop_now e) (ev_prevent e) (ev_in_dispatch e) (ev_target e) (ev_current e) (ev_phase e).
Definition ev_set_stop_now (e : event) := mkEvent (ev_type e) (ev_bubble e) (ev_cancelable e) (ev_stop e) true (ev_prevent e) (ev_in_dispatch e) (ev_target e) (ev_current e) (ev_phase e).
Definition ev_set_prevent (e : event) := mkEvent (ev_type e) (ev_bubble e) (ev_cancelable e) (ev_stop e) (ev_stop_now e) true (ev_in_dispatch e) (ev_target e) (ev_current e) (ev_phase e).
Definition ev_set_in_dispatch (e : event) := mkEvent (ev_type e) (ev_bubble e) (ev_cancelable e) (ev_stop e) (ev_stop_now e) (ev_prevent e) true (ev_target e) (ev_current e) (ev_phase e).
Definition ev_set_target (n : nat) (e : event) := mkEvent (ev_type e) (ev_bubble e) (ev_cancelable e) (ev_stop e) (ev_stop_now e) (ev_prevent e) (ev_in_dispatch e) (Some n) (ev_current e) (ev_phase e).
Definition ev_set_current (n : nat) (e : event) := mkEvent (ev_type e) (ev_bubble e) (ev_cancelable e) (ev_stop e) (ev_stop_now e) (ev_prevent e) (ev_in_dispatch e) (ev_target e) (Some n) (ev_phase e).
Definition ev_set_phase (p : phase) (e : event) := mkEvent (ev_type e) (ev_bubble e) (ev_cancelable e) (ev_stop e) (ev_stop_now e) (ev_prevent e) (ev_in_dispatch e) (ev_target e) (ev_current e) p.

(** event.c:46-70, 256-280: _dom_event_initialise followed by _dom_event_init. *)
Definition new_event (ty : bytes) (bubble cancelable : bool) : event :=
  mkEvent (Some ty) bubble cancelable false false false false None None Capturing.

(** Operations on the links. *)
Definition onring {A} (m : M rheap A) : M estate A := fun s =>
  match m (es_ring s) with
  | Ok a h => Ok a (set_ring (fun _ => h) s)
  | Exc e h => Exc e (set_ring (fun _ => h) s)
  | Bad b => Bad b
  end.
Definition load_info (e : nat) : M estate entry := fun s =>
  match es_info s e with Some i => Ok i s | None => Bad UseAfterFree end.
Definition load_next (e : nat) : M estate (option nat) :=
  c <- onring (rload (Some e)) ;; ret (snd c).
Definition alloc_entry (i : entry) : M estate nat := fun s =>
  let e := es_fresh s in
  Ok e (set_fresh S (set_info (fun f => upd f e (Some i)) (set_ring (fun h => rset h e (None, None)) s))).
Definition free_entry (e : nat) : M estate unit := fun s =>
  Ok tt (set_info (fun f => upd f e None) (set_ring (fun h => upd h e None) s)).
Definition get_head (n : nat) : M estate (option nat) := fun s => Ok (es_head s n) s.
Definition put_head (n : nat) (h : option nat) : M estate unit := modst (set_head (fun f => upd f n h)).

(** event_target.c:72-97: _dom_event_target_add_event_listener. *)
Definition add_listener (n : nat) (ty : bytes) (l : nat) (capture : bool) : M estate unit :=
  e <- alloc_entry (mkEntry ty l capture) ;;
  onring (list_init e) ;;;
  h <- get_head n ;;
  match h with
  | None => put_head n (Some e)
  | Some hd => onring (list_append hd e)
  end.

(** event_target.c:122-129 *)
Definition matches (ty : option bytes) (l : nat) (capture : bool) (i : entry) : bool :=
  match ty with
  | None => Nat.eqb (e_listener i) l
  | Some t => bytes_eqb (e_type i) t && Nat.eqb (e_listener i) l && Bool.eqb (e_capture i) capture
  end.

(** event_target.c:111-148: _dom_event_target_remove_event_listener; the loop
    [do .. while (eti->listeners != NULL && le != eti->listeners)]. *)
Fixpoint remove_loop (fuel : nat) (n : nat) (ty : option bytes) (l : nat) (capture : bool) (le : nat) : M estate unit :=
  match fuel with
  | O => stuck OutOfFuel
  | S f =>
      i <- load_info le ;;
      nx <- load_next le ;;
      if matches ty l capture i then
        (if opt_eqb Nat.eqb nx (Some le) then put_head n None else put_head n nx) ;;;
        onring (list_del le) ;;;
        free_entry le
      else
        h <- get_head n ;;
        match h, nx with
        | None, _ => ret tt
        | Some hd, Some x => if Nat.eqb x hd then ret tt else remove_loop f n ty l capture x
        | Some _, None => stuck NullDeref
        end
  end.
(** A ring has at most [es_fresh] entries. *)
Definition remove_listener (n : nat) (ty : option bytes) (l : nat) (capture : bool) : M estate unit :=
  fun s =>
  match es_head s n with
  | None => Ok tt s
  | Some le => remove_loop (S (es_fresh s)) n ty l capture le s
  end.

(** A call made by a listener or by the client.  HMove stands for any change of
    the tree.  HDispatch is a dispatch of the same event: node.c:2470-2475
    refuses it while the event is being dispatched. *)
Definition run_op (o : hop) : M estate unit :=
  match o with
  | HAdd n ty l c => add_listener n ty l c
  | HRemove n ty l c => remove_listener n ty l c
  | HStop => modst (set_ev ev_set_stop)            (* event.c:228-233 *)
  | HStopNow => modst (set_ev ev_set_stop_now)     (* event.c:309-314 *)
  | HPrevent => modst (set_ev ev_set_prevent)      (* event.c:241-245 *)
  | HMove n p => modst (set_parent (fun f => upd f n p))
  | HDispatch _ => fun s =>
      if ev_in_dispatch (es_ev s) then Ok tt (set_log (cons Refused) s)
      else Bad OutOfFuel  (* not inside a dispatch: not modelled as a listener call *)
  end.
Fixpoint run_ops (os : list hop) : M estate unit :=
  match os with
  | [] => ret tt
  | o :: r => run_op o ;;; run_ops r
  end.

Section Dispatch.
Variable behave : list item -> list hop.

(** [le->listener->handler(evt, le->listener->pw)] *)
Definition call_handler (n l : nat) (ph : phase) : M estate unit := fun s =>
  let s1 := set_log (cons (Called n l ph)) s in
  run_ops (behave (es_log s1)) s1.

(** event_target.c:230-239: the condition. *)
Definition applies (ph : phase) (ev : event) (i : entry) : bool :=
  (e_capture i && phase_eqb ph Capturing) ||
  (negb (e_capture i) && ev_bubble ev && phase_eqb ph Bubbling) ||
  (opt_eqb Nat.eqb (ev_target ev) (ev_current ev) && phase_eqb ph AtTarget).
Definition has_type (ev : event) (i : entry) : bool :=
  match ev_type ev with Some t => bytes_eqb (e_type i) t | None => bytes_eqb (e_type i) [] end.

(** list_has(eti->listeners, le): a NULL head gives false (list.h:70-73). *)
Definition still_there (n le : nat) : M estate bool := fun s =>
  match es_head s n with
  | None => Ok false s
  | Some hd => onring (list_has (S (es_fresh s)) hd le) s
  end.

(** event_target.c:226-257: the loop over the entries.  The fuel bounds the
    number of iterations: listeners can make the loop run for ever. *)
Fixpoint target_loop (fuel : nat) (n : nat) (ph : phase) (le : nat) : M estate unit :=
  match fuel with
  | O => stuck OutOfFuel
  | S f =>
      i <- load_info le ;;
      s <- getst ;;
      go_on <-
        (if has_type (es_ev s) i && applies ph (es_ev s) i then
           call_handler n (e_listener i) ph ;;;
           s1 <- getst ;;
           if ev_stop_now (es_ev s1) then ret false else still_there n le
         else ret true) ;;
      if negb go_on then ret tt
      else
        nx <- load_next le ;;
        h <- get_head n ;;
        match nx with
        | None => stuck NullDeref
        | Some x => if opt_eqb Nat.eqb (Some x) h then ret tt else target_loop f n ph x
        end
  end.

(** event_target.c:216-263: _dom_event_target_dispatch. *)
Definition target_dispatch (fuel : nat) (n : nat) (ph : phase) : M estate unit :=
  h <- get_head n ;;
  match h with
  | None => ret tt
  | Some le => modst (set_ev (ev_set_current n)) ;;; target_loop fuel n ph le
  end.

(** node.c:2503-2521: does a listener of this node have the event's type? *)
Fixpoint listening_loop (fuel : nat) (hd le : nat) : M estate bool :=
  match fuel with
  | O => stuck OutOfFuel
  | S f =>
      i <- load_info le ;;
      s <- getst ;;
      if has_type (es_ev s) i then ret true
      else nx <- load_next le ;;
           match nx with
           | None => stuck NullDeref
           | Some x => if Nat.eqb x hd then ret false else listening_loop f hd x
           end
  end.
Definition listening (n : nat) : M estate bool := fun s =>
  match es_head s n with
  | None => Ok false s
  | Some le => listening_loop (S (es_fresh s)) le le s
  end.

(** node.c:2536-2547: one step up; a parentless fragment leads to its host. *)
Definition up (s : estate) (n : nat) : option nat :=
  match es_parent s n with
  | None => if es_frag s n then es_host s n else None
  | Some p => Some p
  end.

(** node.c:2497-2549: the listening ancestors, nearest first.  The fuel bounds
    the depth. *)
Fixpoint collect (fuel : nat) (n : option nat) : M estate (list nat) :=
  match n with
  | None => ret []
  | Some t =>
      match fuel with
      | O => stuck OutOfFuel
      | S f =>
          b <- listening t ;;
          s <- getst ;;
          rest <- collect f (up s t) ;;
          ret (if b then t :: rest else rest)
      end
  end.

(** The capture and bubbling loops, node.c:2567-2583, 2597-2613; the result
    says whether propagation was stopped. *)
Fixpoint visit (fuel : nat) (ph : phase) (ts : list nat) : M estate bool :=
  match ts with
  | [] => ret false
  | t :: r =>
      target_dispatch fuel t ph ;;;
      s <- getst ;;
      if ev_stop_now (es_ev s) || ev_stop (es_ev s) then ret true else visit fuel ph r
  end.

Definition act (a : action) : M estate unit := fun s =>
  if es_actions s then Ok tt (set_log (cons (Acted a)) s) else Ok tt s.

(** node.c:2456-2640: _dom_node_dispatch_event; the result is [*success].
    The node has an owner document. *)
Definition node_dispatch (fuel : nat) (et : nat) : M estate bool :=
  s <- getst ;;
  if ev_in_dispatch (es_ev s) then raise DISPATCH_REQUEST_ERR
  else
    modst (set_ev ev_set_in_dispatch) ;;;
    match ev_type (es_ev s) with
    | None => raise UNSPECIFIED_EVENT_TYPE_ERR
    | Some _ =>
        targets <- collect fuel (es_parent s et) ;;
        modst (set_ev (fun e => ev_set_phase Capturing (ev_set_target et e))) ;;;
        act ActStarted ;;;
        stopped <- visit fuel Capturing (rev targets) ;;
        stopped <-
          (if stopped then ret true
           else
             modst (set_ev (fun e => ev_set_current et (ev_set_phase AtTarget e))) ;;;
             target_dispatch fuel et AtTarget ;;;
             s1 <- getst ;;
             if ev_stop_now (es_ev s1) || ev_stop (es_ev s1) then ret true
             else
               modst (set_ev (ev_set_phase Bubbling)) ;;;
               visit fuel Bubbling targets) ;;
        (if stopped then ret tt
         else s2 <- getst ;;
              act (if ev_prevent (es_ev s2) then ActPrevented else ActEnd)) ;;;
        act ActFinished ;;;
        s3 <- getst ;;
        ret (negb (ev_prevent (es_ev s3)))
    end.

End Dispatch.
