(** What a hash table should do: a finite map, described without chains or
    hashes. *)
From Coq Require Import List NArith Bool.
From Verif Require Import HashModel.
Import ListNotations.

Section Spec.
  Variables K V : Type.
  Variable keq : K -> K -> bool.

  Definition fmap : Type := K -> option V.
  Definition fempty : fmap := fun _ => None.
  Definition fset (m : fmap) (k : K) (v : V) : fmap := fun k' => if keq k k' then Some v else m k'.
  Definition fdel (m : fmap) (k : K) : fmap := fun k' => if keq k k' then None else m k'.

  (** Effect and answer of one call on the finite map.  Null arguments do nothing. *)
  Definition fstep (m : fmap) (o : hop K V) : fmap * hout V :=
    match o with
    | HAdd (Some k) (Some v) replace =>
        match m k with
        | None => (fset m k v, OBool true)
        | Some _ => if replace then (fset m k v, OBool true) else (m, OBool false)
        end
    | HAdd _ _ _ => (m, OBool false)
    | HGet (Some k) => (m, OVal (m k))
    | HGet None => (m, OVal None)
    | HDel (Some k) => (fdel m k, OVal (m k))
    | HDel None => (m, OVal None)
    end.
  Fixpoint frun (m : fmap) (os : list (hop K V)) : fmap * list (hout V) :=
    match os with
    | [] => (m, [])
    | o :: r => let (m', x) := fstep m o in let (m'', xs) := frun m' r in (m'', x :: xs)
    end.

  (** [ks] lists the keys of [m]: each key of [m] is equal to exactly one
      member, and each member is a key. *)
  Definition lists_keys (m : fmap) (ks : list K) : Prop :=
    (forall k, (exists v, m k = Some v) <-> existsb (keq k) ks = true) /\
    ForallOrdPairs (fun a b => keq a b = false) ks.

  (** Key equality is an equivalence and the hash respects it. *)
  Definition good_keys (khash : K -> N) : Prop :=
    (forall a, keq a a = true) /\
    (forall a b, keq a b = true -> keq b a = true) /\
    (forall a b c, keq a b = true -> keq b c = true -> keq a c = true) /\
    (forall a b, keq a b = true -> khash a = khash b).
End Spec.
Arguments fempty {K V}. Arguments frun {K V}. Arguments lists_keys {K V}. Arguments fstep {K V}.
