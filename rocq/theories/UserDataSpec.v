(** What user data is for: on every node, a map from keys to data and handler. *)
From Coq Require Import List Arith NArith Bool.
From Verif Require Import Base UserDataModel.
Import ListNotations.

Inductive ucall := USet (n : nat) (key : bytes) (data handler : option nat) | UGet (n : nat) (key : bytes) | UClone (n : nat) | UDelete (n : nat).
Definition uexec (o : ucall) : M ustate (option nat) :=
  match o with
  | USet n k d h => set_user_data n k d h
  | UGet n k => get_user_data n k
  | UClone n => bind (clone_user_data n) (fun _ => ret None)
  | UDelete n => bind (delete_user_data n) (fun _ => ret None)
  end.
Definition fresh_nodes : ustate := mkU (fun _ => None) 0 (fun _ => None) [].

(** Node, key -> data and handler. *)
Definition umap : Type := nat -> bytes -> option (nat * option nat).
Definition no_data : umap := fun _ _ => None.
Definition umeans (m : umap) (o : ucall) : umap :=
  match o with
  | USet n k (Some d) h => fun n' k' => if Nat.eqb n' n && bytes_eqb k' k then Some (d, h) else m n' k'
  | USet n k None _ => fun n' k' => if Nat.eqb n' n && bytes_eqb k' k then None else m n' k'
  | UDelete n => fun n' k' => if Nat.eqb n' n then None else m n' k'
  | _ => m
  end.
(** The value the call gives back. *)
Definition ureturns (m : umap) (o : ucall) : option nat :=
  match o with
  | USet n k _ _ | UGet n k => option_map fst (m n k)
  | _ => None
  end.
(** The notices of a clone or deletion: one for each key with a handler. *)
Definition notices (op : udop) (n : nat) (m : umap) (ts : list notice) : Prop :=
  NoDup (map nt_key ts) /\
  forall t, In t ts <-> exists k d h, m n k = Some (d, Some h) /\ t = mkNotice op n k (Some d) h.
Definition utells (m : umap) (o : ucall) (ts : list notice) : Prop :=
  match o with
  | UClone n => notices UdCloned n m ts
  | UDelete n => notices UdDeleted n m ts
  | _ => ts = []
  end.
(** Removing with a handler: not done by careful clients. *)
Definition tidy_call (o : ucall) : Prop := match o with USet _ _ None (Some _) => False | _ => True end.

(** States after histories of calls that satisfy [P], with their meaning. *)
Inductive ureach (P : ucall -> Prop) : ustate -> umap -> Prop :=
| ur_start : ureach P fresh_nodes no_data
| ur_call s m o r s' : ureach P s m -> P o -> uexec o s = Ok r s' -> ureach P s' (umeans m o).
