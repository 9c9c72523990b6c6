(** What a client may do with strings, elements and the title of an HTML document, who
    keeps references to a string, and what values and default values should read as. *)
From Coq Require Import List NArith Bool Arith.
From Verif Require Import Base StringModel StrRefModel.
Import ListNotations.
Local Open Scope dom_scope.

(** The calls. *)
Inductive sop : Type :=
| SNew (b : bytes)                               (** dom_string_create *)
| SRef (i : nat) | SRelease (i : nat)            (** dom_string_ref, dom_string_unref *)
| SElement (tag : nat)                           (** createElement *)
| SElementNS (ns : option nat) (q : nat)         (** createElementNS *)
| SDestroy (e : nat)                             (** the last reference to an element goes *)
| SCopy (e : nat)                                (** cloneNode(false) *)
| SSetTitle (t : option nat) | STitle
| SSetValue (e : nat) (v : option nat) | SValue (e : nat)
| SSetDefault (e : nat) (v : option nat) | SDefault (e : nat)
| SSetText (e : nat) (v : option nat)            (** setTextContent of a TEXTAREA *)
| SAttr (e name v : nat)                         (** setAttribute *)
| SSetChecked (e : nat) (b : bool) | SChecked (e : nat)
| SSetDChecked (e : nat) (b : bool) | SDChecked (e : nat).

(** What they answer. *)
Inductive sout : Type := UDone | UStr (o : option nat) | UEl (e : nat) | UBool (b : bool).

Definition done {S} (m : M S unit) : M S sout := m ;;; ret UDone.
Definition str {S} (m : M S (option nat)) : M S sout := o <- m ;; ret (UStr o).
Definition sexec (o : sop) : M cst sout :=
  match o with
  | SNew b => i <- s_new b ;; ret (UStr (Some i))
  | SRef i => s_ref i ;;; ret (UStr (Some i))
  | SRelease i => done (s_unref i)
  | SElement t => e <- create_element t ;; ret (UEl e)
  | SElementNS ns q => e <- create_element_ns ns q ;; ret (UEl e)
  | SDestroy e => done (destroy_el e)
  | SCopy e => c <- copy_el e ;; ret (UEl c)
  | SSetTitle t => done (set_title t)
  | STitle => str get_title
  | SSetValue e v => done (set_value e v)
  | SValue e => str (get_value e)
  | SSetDefault e v => done (set_default e v)
  | SDefault e => str (get_default e)
  | SSetText e v => done (set_text e v)
  | SAttr e n v => done (set_attr e n v)
  | SSetChecked e b => done (set_checked e b)
  | SChecked e => b <- get_checked e ;; ret (UBool b)
  | SSetDChecked e b => done (set_dchecked e b)
  | SDChecked e => b <- get_dchecked e ;; ret (UBool b)
  end.

(** ** A correct client: it passes strings it holds a reference to and elements that are
    there, and calls the functions of INPUT and TEXTAREA on such elements. *)
Definition opt_in (own : list nat) (o : option nat) : Prop := match o with Some i => In i own | None => True end.
Definition there (s : cst) (e : nat) : Prop := exists x, el_at s e = Some x.
Definition input (s : cst) (e : nat) : Prop :=
  exists x dv dvs v vs dc dcs ck cks, el_at s e = Some x /\ e_ctl x = Input dv dvs v vs dc dcs ck cks.
Definition area (s : cst) (e : nat) : Prop :=
  exists x dv dvs v vs t, el_at s e = Some x /\ e_ctl x = Area dv dvs v vs t.
Definition slegal (own : list nat) (s : cst) (o : sop) : Prop :=
  match o with
  | SNew _ | STitle => True
  | SRef i | SRelease i | SElement i => In i own
  | SElementNS ns q => opt_in own ns /\ In q own
  | SDestroy e | SCopy e => there s e
  | SSetTitle t => opt_in own t
  | SSetValue e v | SSetDefault e v => opt_in own v /\ (input s e \/ area s e)
  | SValue e | SDefault e => input s e \/ area s e
  | SSetText e v => opt_in own v /\ area s e
  | SAttr e n v => In n own /\ In v own /\ there s e
  | SSetChecked e _ | SChecked e | SSetDChecked e _ | SDChecked e => input s e
  end.

(** The references the client holds after a call: every string that is answered comes
    with one. *)
Fixpoint take (i : nat) (l : list nat) : list nat :=
  match l with [] => [] | j :: r => if Nat.eqb j i then r else j :: take i r end.
Definition own_after (own : list nat) (o : sop) (u : sout) : list nat :=
  match o, u with
  | SRelease i, _ => take i own
  | _, UStr (Some i) => i :: own
  | _, _ => own
  end.

(** ** Who keeps a string: the elements that are there and the document. *)
Definition olist (o : option nat) : list nat := match o with Some i => [i] | None => [] end.
Definition ctl_strs (c : ctl) : list nat :=
  match c with
  | Plain => []
  | Input dv _ v _ _ _ _ _ => olist dv ++ olist v
  | Area dv _ v _ t => olist dv ++ olist v ++ olist t
  end.
Definition el_strs (x : option elem) : list nat :=
  match x with Some x => e_name x :: olist (e_ns x) ++ olist (e_prefix x) ++ ctl_strs (e_ctl x) | None => [] end.
Definition kept (s : cst) : list nat := olist (c_title s) ++ flat_map el_strs (c_els s).

Definition refs (s : cst) (i : nat) : N := match c_str s i with Some (_, c) => c | None => 0%N end.
Definition text (s : cst) (i : nat) : option bytes := option_map fst (c_str s i).
Definition times (i : nat) (l : list nat) : N := N.of_nat (count_occ Nat.eq_dec l i).

(** The one call that drops a reference on the floor: reading the value of a TEXTAREA
    that was never set, for the second time and later. *)
Definition loses (s : cst) (o : sop) : list nat :=
  match o with
  | SValue e => match el_at s e with
                | Some x => match e_ctl x with Area _ _ v false _ => olist v | _ => [] end
                | None => []
                end
  | _ => []
  end.
(** The one call that gives back a reference it does not have: an element in the SVG
    namespace. *)
Definition calm (s : cst) (o : sop) : Prop :=
  match o with SElementNS (Some n) _ => text s n <> Some svg_ns | _ => True end.

(** ** Histories: the calls made so far, the references the client holds and those that
    were lost. *)
Definition blank : cst := mkCst (fun _ => None) 0 [] None.
Inductive sreach : nat -> cst -> list nat -> list nat -> Prop :=
| sr_start : sreach 0 blank [] []
| sr_ok k s own lost o u s' : sreach k s own lost -> slegal own s o -> calm s o ->
    sexec o s = Ok u s' -> sreach (S k) s' (own_after own o u) (loses s o ++ lost)
| sr_exc k s own lost o x s' : sreach k s own lost -> slegal own s o -> calm s o ->
    sexec o s = Exc x s' -> sreach (S k) s' own lost.
(** Fewer calls than would make a count of references wrap around. *)
Definition brief (k : nat) : Prop := (N.of_nat k * 8 + 16 < two32)%N.

(** More calls, by the same client. *)
Inductive smore : cst -> list nat -> list sop -> cst -> list nat -> Prop :=
| sm_none s own : smore s own [] s own
| sm_ok s own o u s' os s2 own2 : slegal own s o -> calm s o -> sexec o s = Ok u s' ->
    smore s' (own_after own o u) os s2 own2 -> smore s own (o :: os) s2 own2
| sm_exc s own o x s' os s2 own2 : slegal own s o -> calm s o -> sexec o s = Exc x s' ->
    smore s' own os s2 own2 -> smore s own (o :: os) s2 own2.

(** Calls that leave what an element was given alone. *)
Definition keeps_value (e : nat) (o : sop) : bool :=
  match o with SSetValue e' _ | SDestroy e' => negb (Nat.eqb e' e) | _ => true end.
Definition keeps_default (e : nat) (o : sop) : bool :=
  match o with SSetDefault e' _ | SDestroy e' => negb (Nat.eqb e' e) | _ => true end.
Definition keeps_checked (e : nat) (o : sop) : bool :=
  match o with SSetChecked e' _ | SDestroy e' => negb (Nat.eqb e' e) | _ => true end.
(** The call does nothing with the element. *)
Definition spares (e : nat) (o : sop) : bool :=
  match o with
  | SDestroy e' | SSetValue e' _ | SValue e' | SSetDefault e' _ | SDefault e' | SSetText e' _ | SAttr e' _ _
  | SSetChecked e' _ | SChecked e' | SSetDChecked e' _ | SDChecked e' => negb (Nat.eqb e' e)
  | _ => true
  end.
(** The name of an attribute, upper or lower case. *)
Definition named (s : cst) (i : nat) (n : bytes) : Prop := exists b, text s i = Some b /\ map dolower b = n.
(** The call makes an element. *)
Definition makes (o : sop) : Prop := match o with SElement _ | SElementNS _ _ => True | _ => False end.
