(** Shared vocabulary of the libdom model: exception codes, outcomes, the
    state-and-exception monad and a few list functions.  No proofs here. *)
From Coq Require Import List Arith NArith ZArith Bool.
Import ListNotations.

(** Exception codes: include/dom/core/exceptions.h:24-49 (DOM_NO_ERR is [Ok]). *)
Inductive exn : Type :=
| INDEX_SIZE_ERR | DOMSTRING_SIZE_ERR | HIERARCHY_REQUEST_ERR | WRONG_DOCUMENT_ERR
| INVALID_CHARACTER_ERR | NO_DATA_ALLOWED_ERR | NO_MODIFICATION_ALLOWED_ERR
| NOT_FOUND_ERR | NOT_SUPPORTED_ERR | INUSE_ATTRIBUTE_ERR | INVALID_STATE_ERR
| SYNTAX_ERR | INVALID_MODIFICATION_ERR | NAMESPACE_ERR | INVALID_ACCESS_ERR
| VALIDATION_ERR | TYPE_MISMATCH_ERR | UNSPECIFIED_EVENT_TYPE_ERR
| DISPATCH_REQUEST_ERR | NO_MEM_ERR | ATTR_WRONG_TYPE_ERR.

(** Outcomes that are not a return from the C function: undefined behaviour,
    a failed [assert], and -- distinct from both -- exhausted model fuel. *)
Inductive bad : Type :=
| UseAfterFree     (** access through a pointer to freed (or never allocated) memory *)
| NullDeref        (** access through a NULL pointer *)
| AssertFail       (** a failed assert() *)
| DivByZero        (** x % 0 *)
| OutOfBounds      (** access outside an array *)
| BadCast          (** object accessed as a type it does not have *)
| OutOfFuel.       (** the model's recursion bound was too small: not a C outcome *)

(** Result of running a C function from a state [S]: normal return with
    DOM_NO_ERR, return of an exception code (the state is kept: libdom may have
    had side effects before failing), or a [bad] outcome. *)
Inductive res (S A : Type) : Type :=
| Ok (a : A) (s : S)
| Exc (e : exn) (s : S)
| Bad (b : bad).
Arguments Ok {S A} a s.
Arguments Exc {S A} e s.
Arguments Bad {S A} b.

Definition M (S A : Type) : Type := S -> res S A.

Definition ret {S A} (a : A) : M S A := fun s => Ok a s.
Definition raise {S A} (e : exn) : M S A := fun s => Exc e s.
Definition stuck {S A} (b : bad) : M S A := fun _ => Bad b.
Definition bind {S A B} (m : M S A) (f : A -> M S B) : M S B :=
  fun s => match m s with
           | Ok a s' => f a s'
           | Exc e s' => Exc e s'
           | Bad b => Bad b
           end.
Definition getst {S} : M S S := fun s => Ok s s.
Definition setst {S} (s' : S) : M S unit := fun _ => Ok tt s'.
Definition modst {S} (f : S -> S) : M S unit := fun s => Ok tt (f s).
(** Run [m]; hand its exception code (if any) to the continuation instead of
    propagating it: [err = f(..); if (err != DOM_NO_ERR) ...] *)
Definition try {S A} (m : M S A) : M S (A + exn) :=
  fun s => match m s with
           | Ok a s' => Ok (inl a) s'
           | Exc e s' => Ok (inr e) s'
           | Bad b => Bad b
           end.

Declare Scope dom_scope.
Delimit Scope dom_scope with dom.
Notation "x <- m ;; k" := (bind m (fun x => k))
  (at level 61, m at next level, right associativity) : dom_scope.
Notation "m ;;; k" := (bind m (fun _ => k))
  (at level 61, right associativity) : dom_scope.

Definition is_ok {S A} (r : res S A) : Prop := exists a s, r = Ok a s.
Definition is_bad {S A} (r : res S A) : Prop := exists b, r = Bad b.

(** 32-bit unsigned arithmetic. *)
Definition u32 (n : N) : N := (n mod 4294967296)%N.
Definition two32 : N := 4294967296%N.

(** Byte strings. *)
Definition bytes : Type := list N.

Fixpoint bytes_eqb (a b : bytes) : bool :=
  match a, b with
  | [], [] => true
  | x :: a', y :: b' => N.eqb x y && bytes_eqb a' b'
  | _, _ => false
  end.

Definition last_error {A} (l : list A) : option A := hd_error (rev l).

Definition opt_eqb {A} (eqb : A -> A -> bool) (a b : option A) : bool :=
  match a, b with
  | None, None => true
  | Some x, Some y => eqb x y
  | _, _ => false
  end.
