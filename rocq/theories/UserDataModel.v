(** Model of per-node user data: struct dom_user_data (src/core/node.h:27-36) and
    its functions in src/core/node.c.  Entries live in a heap of their own and
    are never given the address of a freed entry again.  Data and handlers are
    numbers, NULL is None; keys are bytes.  Handlers only observe: what they do
    to the tree is not modelled.  No proofs here. *)
From Coq Require Import List Arith NArith Bool.
From Verif Require Import Base.
Import ListNotations.
Local Open Scope dom_scope.

Record udcell := mkUd { u_key : bytes; u_data : option nat; u_handler : option nat; u_next : option nat; u_prev : option nat }.
(** What handlers are told: operation, key, data and handler (node.h user data
    operations; import and adopt are not modelled here). *)
Inductive udop := UdCloned | UdDeleted.
Record notice := mkNotice { nt_op : udop; nt_node : nat; nt_key : bytes; nt_data : option nat; nt_handler : nat }.
Record ustate := mkU { us_heap : nat -> option udcell; us_fresh : nat; us_first : nat -> option nat; us_log : list notice }.

Definition uload (p : option nat) : M ustate udcell := fun s =>
  match p with
  | None => Bad NullDeref
  | Some i => match us_heap s i with Some c => Ok c s | None => Bad UseAfterFree end
  end.
Definition uput (i : nat) (c : option udcell) : M ustate unit :=
  modst (fun s => mkU (fun j => if Nat.eqb j i then c else us_heap s j) (us_fresh s) (us_first s) (us_log s)).
Definition ustore (p : option nat) (f : udcell -> udcell) : M ustate unit :=
  c <- uload p ;; match p with Some i => uput i (Some (f c)) | None => stuck NullDeref end.
Definition first_of (n : nat) : M ustate (option nat) := fun s => Ok (us_first s n) s.
Definition set_first (n : nat) (p : option nat) : M ustate unit :=
  modst (fun s => mkU (us_heap s) (us_fresh s) (fun m => if Nat.eqb m n then p else us_first s m) (us_log s)).
Definition tell (t : notice) : M ustate unit :=
  modst (fun s => mkU (us_heap s) (us_fresh s) (us_first s) (t :: us_log s)).
Definition with_next p c := mkUd (u_key c) (u_data c) (u_handler c) p (u_prev c).
Definition with_prev p c := mkUd (u_key c) (u_data c) (u_handler c) (u_next c) p.
Definition with_data d h c := mkUd (u_key c) d h (u_next c) (u_prev c).

(** node.c:1793-1797 and 1861-1865: the search; the fuel bounds the length. *)
Fixpoint ud_find (fuel : nat) (key : bytes) (p : option nat) : M ustate (option nat) :=
  match p with
  | None => ret None
  | Some i =>
      match fuel with
      | O => stuck OutOfFuel
      | S f => c <- uload p ;; if bytes_eqb (u_key c) key then ret p else ud_find f key (u_next c)
      end
  end.
Definition ud_search (n : nat) (key : bytes) : M ustate (option nat) := fun s => ud_find (us_fresh s) key (us_first s n) s.

(** node.c:1786-1845: _dom_node_set_user_data. *)
Definition set_user_data (n : nat) (key : bytes) (data handler : option nat) : M ustate (option nat) :=
  ud <- ud_search n key ;;
  match ud, data with
  | Some i, None =>
      c <- uload ud ;;
      match u_next c with Some x => ustore (Some x) (with_prev (u_prev c)) | None => ret tt end ;;;
      match u_prev c with Some x => ustore (Some x) (with_next (u_next c)) | None => set_first n (u_next c) end ;;;
      uput i None ;;;
      ret (u_data c)
  | _, _ =>
      i <- match ud with
           | Some i => ret i
           | None =>
               s <- getst ;;
               let i := us_fresh s in
               modst (fun s => mkU (us_heap s) (S (us_fresh s)) (us_first s) (us_log s)) ;;;
               old <- first_of n ;;
               uput i (Some (mkUd key None None old None)) ;;;
               match old with Some x => ustore (Some x) (with_prev (Some i)) | None => ret tt end ;;;
               set_first n (Some i) ;;;
               ret i
           end ;;
      c <- uload (Some i) ;;
      ustore (Some i) (with_data data handler) ;;;
      ret (u_data c)
  end.

(** node.c:1855-1873: _dom_node_get_user_data. *)
Definition get_user_data (n : nat) (key : bytes) : M ustate (option nat) :=
  ud <- ud_search n key ;;
  match ud with
  | Some _ => c <- uload ud ;; ret (u_data c)
  | None => ret None
  end.

(** node.c:1164-1172: the handlers told by cloneNode; the clone starts without
    user data (node.c:1932). *)
Fixpoint tell_clone (fuel : nat) (n : nat) (p : option nat) : M ustate unit :=
  match p with
  | None => ret tt
  | Some _ =>
      match fuel with
      | O => stuck OutOfFuel
      | S f =>
          c <- uload p ;;
          match u_handler c with Some h => tell (mkNotice UdCloned n (u_key c) (u_data c) h) | None => ret tt end ;;;
          tell_clone f n (u_next c)
      end
  end.
Definition clone_user_data (n : nat) : M ustate unit := fun s => tell_clone (us_fresh s) n (us_first s n) s.

(** node.c:230-241: destruction. *)
Fixpoint tell_delete (fuel : nat) (n : nat) (p : option nat) : M ustate unit :=
  match p with
  | None => ret tt
  | Some i =>
      match fuel with
      | O => stuck OutOfFuel
      | S f =>
          c <- uload p ;;
          match u_handler c with Some h => tell (mkNotice UdDeleted n (u_key c) (u_data c) h) | None => ret tt end ;;;
          uput i None ;;;
          tell_delete f n (u_next c)
      end
  end.
Definition delete_user_data (n : nat) : M ustate unit := fun s =>
  (tell_delete (us_fresh s) n (us_first s n) ;;; set_first n None) s.
