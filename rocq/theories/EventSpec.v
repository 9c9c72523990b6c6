(** What event listeners and dispatch are expected to do. *)
From Coq Require Import List Arith NArith Bool.
From Verif Require Import Base RingModel RingSpec EventModel.
Import ListNotations.

(** * Registrations, as in the DOM standard *)
Definition entry_eqb (a b : entry) : bool :=
  bytes_eqb (e_type a) (e_type b) && Nat.eqb (e_listener a) (e_listener b) && Bool.eqb (e_capture a) (e_capture b).
Definition registry : Type := nat -> list entry.
Definition no_registrations : registry := fun _ => [].
(** A duplicate is not added; removing removes that registration; removing with
    no type removes every registration of the listener. *)
Definition means (r : registry) (o : hop) : registry :=
  match o with
  | HAdd n ty l c => fun m => if Nat.eqb m n && negb (existsb (entry_eqb (mkEntry ty l c)) (r n)) then r m ++ [mkEntry ty l c] else r m
  | HRemove n (Some ty) l c => fun m => if Nat.eqb m n then filter (fun i => negb (entry_eqb (mkEntry ty l c) i)) (r m) else r m
  | HRemove n None l c => fun m => if Nat.eqb m n then filter (fun i => negb (Nat.eqb l (e_listener i))) (r m) else r m
  | _ => r
  end.
Definition meaning (os : list hop) (r : registry) : registry := fold_left means os r.

(** No listener is added twice; removals name the type. *)
Definition no_duplicate (r : registry) (o : hop) : Prop :=
  match o with
  | HAdd n ty l c => ~ In (mkEntry ty l c) (r n)
  | HRemove _ ty _ _ => ty <> None
  | _ => False
  end.
(** What is removed is the oldest registration of the node, or not there. *)
Definition oldest (r : registry) (o : hop) : Prop :=
  match o with
  | HRemove n (Some ty) l c => In (mkEntry ty l c) (r n) -> exists rest, r n = mkEntry ty l c :: rest
  | _ => True
  end.
Fixpoint every (P : registry -> hop -> Prop) (r : registry) (os : list hop) : Prop :=
  match os with
  | [] => True
  | o :: rest => P r o /\ every P (means r o) rest
  end.

(** The registrations of [n] in memory, in the order in which they are visited. *)
Definition listed (s : estate) (n : nat) (l : list entry) : Prop :=
  match es_head s n with
  | None => l = []
  | Some a => exists m, holds_list (es_ring s) a m /\ map (es_info s) (a :: m) = map Some l
  end.

(** * Histories *)
(** A world without listeners: any tree, any event. *)
Definition blank (parent : nat -> option nat) (frag : nat -> bool) (host : nat -> option nat) (actions : bool) (ev : event) : estate :=
  mkE (fun _ => None) (fun _ => None) 0 (fun _ => None) parent frag host ev actions [].
(** Clients add and remove listeners, edit the tree, create events and dispatch
    them with listeners that do anything. *)
Inductive ereach : estate -> Prop :=
| er_blank parent frag host actions ev : ereach (blank parent frag host actions ev)
| er_op s o s' : ereach s -> run_op o s = Ok tt s' -> ereach s'
| er_event s ev : ereach s -> ereach (set_ev (fun _ => ev) s)
| er_dispatch s behave fuel et b s' : ereach s -> node_dispatch behave fuel et s = Ok b s' -> ereach s'.

(** * Propagation *)
(** The nodes above [n]: parents, and the host of a fragment without parent. *)
Inductive above (parent : nat -> option nat) (frag : nat -> bool) (host : nat -> option nat) : nat -> list nat -> Prop :=
| ab_root n : parent n = None -> (frag n = true -> host n = None) -> above parent frag host n []
| ab_parent n p l : parent n = Some p -> above parent frag host p l -> above parent frag host n (p :: l)
| ab_host n p l : parent n = None -> frag n = true -> host n = Some p -> above parent frag host p l -> above parent frag host n (p :: l).

Definition call : Type := (nat * phase * nat)%type.
Definition of_type (ty : bytes) (l : list entry) : list entry := filter (fun i => bytes_eqb (e_type i) ty) l.
Definition calls_on (ph : phase) (n : nat) (l : list entry) : list call := map (fun i => (n, ph, e_listener i)) l.
Definition capture_calls (reg : registry) (ty : bytes) (n : nat) : list call := calls_on Capturing n (filter e_capture (of_type ty (reg n))).
Definition target_calls (reg : registry) (ty : bytes) (n : nat) : list call := calls_on AtTarget n (of_type ty (reg n)).
Definition bubble_calls (reg : registry) (ty : bytes) (n : nat) : list call := calls_on Bubbling n (filter (fun i => negb (e_capture i)) (of_type ty (reg n))).
(** Root down, target, and, for bubbling events, back up; [path] nearest first. *)
Definition plan (reg : registry) (ty : bytes) (bubbles : bool) (target : nat) (path : list nat) : list call :=
  flat_map (capture_calls reg ty) (rev path) ++ target_calls reg ty target ++
  (if bubbles then flat_map (bubble_calls reg ty) path else []).

(** * Listener programs *)
(** The program run for the call at the head of [seen] contains [o]. *)
Definition hop_is (o o' : hop) : bool :=
  match o, o' with
  | HStop, HStop | HStopNow, HStopNow | HPrevent, HPrevent => true
  | _, _ => false
  end.
Definition asks (behave : list item -> list hop) (o : hop) (seen : list item) : bool := existsb (hop_is o) (behave seen).
(** Listeners that change no registrations and dispatch nothing; they may stop
    and prevent the event and change the tree. *)
Definition quiet (behave : list item -> list hop) : Prop :=
  forall seen o, In o (behave seen) -> match o with HStop | HStopNow | HPrevent | HMove _ _ => True | _ => False end.

(** Delivery of a plan, most recent call first: stopImmediatePropagation ends
    it, stopPropagation ends it after the node and phase it was called in. *)
Fixpoint deliver (behave : list item -> list hop) (calls : list call) (halt : option (nat * phase)) (seen : list item) : list item :=
  match calls with
  | [] => seen
  | (n, ph, l) :: rest =>
      if match halt with Some (n', ph') => negb (Nat.eqb n n' && phase_eqb ph ph') | None => false end then seen
      else
        let seen1 := Called n l ph :: seen in
        if asks behave HStopNow seen1 then seen1
        else deliver behave rest (if asks behave HStop seen1 then Some (n, ph) else halt) seen1
  end.
(** Did a call among the new items of the log ask for [o]? *)
Fixpoint asked (behave : list item -> list hop) (o : hop) (new old : list item) : bool :=
  match new with
  | [] => false
  | i :: r => match i with Called _ _ _ => asks behave o (i :: r ++ old) | _ => false end || asked behave o r old
  end.
(** The calls in a piece of the log, oldest first. *)
Fixpoint calls_of (log : list item) : list call :=
  match log with
  | [] => []
  | Called n l ph :: r => calls_of r ++ [(n, ph, l)]
  | _ :: r => calls_of r
  end.

(** An event as created: dom_event_init with a type. *)
Definition pristine (ev : event) (ty : bytes) : Prop :=
  ev_type ev = Some ty /\ ev_stop ev = false /\ ev_stop_now ev = false /\ ev_prevent ev = false /\ ev_in_dispatch ev = false.
