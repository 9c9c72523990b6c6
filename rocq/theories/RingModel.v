(** The intrusive circular list of src/utils/list.h.  Definitions only. *)
From Coq Require Import List Arith Bool.
From Verif Require Import Base.
Import ListNotations.
Local Open Scope dom_scope.

(** struct list_entry, list.h:18-21: (prev, next).  Entries are identified by
    numbers; an entry the heap does not map is not allocated. *)
Definition cell : Type := (option nat * option nat)%type.
Definition rheap : Type := nat -> option cell.

Definition rset (h : rheap) (i : nat) (c : cell) : rheap := fun j => if Nat.eqb j i then Some c else h j.

(** Pointer accesses: a NULL or unallocated pointer is undefined behaviour. *)
Definition rload (p : option nat) : M rheap cell := fun h =>
  match p with
  | None => Bad NullDeref
  | Some i => match h i with Some c => Ok c h | None => Bad UseAfterFree end
  end.
Definition rstore (p : option nat) (f : cell -> cell) : M rheap unit := fun h =>
  match p with
  | None => Bad NullDeref
  | Some i => match h i with Some c => Ok tt (rset h i (f c)) | None => Bad UseAfterFree end
  end.
Definition set_rprev (p : option nat) (c : cell) : cell := (p, snd c).
Definition set_rnext (p : option nat) (c : cell) : cell := (fst c, p).

(** list.h:28-32 *)
Definition list_init (e : nat) : M rheap unit :=
  rstore (Some e) (set_rprev (Some e)) ;;; rstore (Some e) (set_rnext (Some e)).

(** list.h:40-46 *)
Definition list_append (hd e : nat) : M rheap unit :=
  rstore (Some e) (set_rnext (Some hd)) ;;;
  c <- rload (Some hd) ;; rstore (Some e) (set_rprev (fst c)) ;;;
  c <- rload (Some hd) ;; rstore (fst c) (set_rnext (Some e)) ;;;
  rstore (Some hd) (set_rprev (Some e)).

(** list.h:53-60 *)
Definition list_del (e : nat) : M rheap unit :=
  c <- rload (Some e) ;; rstore (fst c) (set_rnext (snd c)) ;;;
  c <- rload (Some e) ;; rstore (snd c) (set_rprev (fst c)) ;;;
  rstore (Some e) (set_rprev (Some e)) ;;; rstore (Some e) (set_rnext (Some e)).

(** list.h:67-80; the do-while loop, with fuel for the number of iterations. *)
Fixpoint list_has_loop (fuel : nat) (hd e : nat) (cur : option nat) : M rheap bool :=
  match fuel with
  | O => stuck OutOfFuel
  | S f =>
      match cur with
      | None => ret false
      | Some i =>
          if Nat.eqb i e then ret true
          else c <- rload cur ;;
               if opt_eqb Nat.eqb (snd c) (Some hd) then ret false else list_has_loop f hd e (snd c)
      end
  end.
Definition list_has (fuel : nat) (hd e : nat) : M rheap bool := list_has_loop fuel hd e (Some hd).
