(** Typed attribute values: what C51 speaks of. *)
From Coq Require Import List Arith NArith Bool.
From Verif Require Import Base AttrModel AttrSpec.
Import ListNotations.

(** A typed value, and its kind. *)
Inductive tval := TBool (b : bool) | TShort (n : N) | TInt (n : N).
Inductive kind := KBool | KShort | KInt.
Definition kind_of (t : tval) : kind := match t with TBool _ => KBool | TShort _ => KShort | TInt _ => KInt end.

(** The calls that set and get one. *)
Definition tset (a : nat) (t : tval) : aop := match t with TBool b => ASetBool a b | TShort n => ASetShort a n | TInt n => ASetInt a n end.
Definition tget (c : kind) (a : nat) : aop := match c with KBool => AGetBool a | KShort => AGetShort a | KInt => AGetInt a end.
Definition told (t : tval) : aout := match t with TBool b => RBool b | TShort n | TInt n => RNum n end.
Definition mismatch : aout := RErr ATTR_WRONG_TYPE_ERR.

(** Any further legal calls that satisfy [P]. *)
Inductive further (P : aop -> Prop) : nat -> ast -> attrs -> nat -> ast -> attrs -> Prop :=
| fu_none k s Q : further P k s Q k s Q
| fu_call k s Q o r s1 k' s' Q' : P o -> alegal Q o -> aexec o s = Ok r s1 \/ (exists e, aexec o s = Exc e s1) ->
    further P (S k) s1 (snd (qmeans o Q)) k' s' Q' -> further P k s Q k' s' Q'.

(** Not a typed set on [a]. *)
Definition other_than_tset (a : nat) (o : aop) : Prop := forall t, o <> tset a t.
(** Nor a string set that could reach [a]. *)
Definition sets_nothing (a : nat) (o : aop) : Prop :=
  other_than_tset a o /\ match o with ASet _ _ _ _ _ => False | ASetValue b _ => b <> a | _ => True end.
