(** C36: the hash table behaves as a finite map. *)
From Coq Require Import List NArith Bool Lia.
From Verif Require Import Base HashModel HashSpec HashProofs.
Import ListNotations.

(** For any key equality and hash function compatible with it, any positive
    number of chains and any sequence of add/get/del calls (NULL arguments
    included): no call goes wrong, every answer is the one the finite map
    gives, iteration lists each key exactly once, the reported length is the
    number of keys modulo 2^32, and a clone answers every further sequence of
    calls the way the original does. *)
Theorem C36_hash_table_is_finite_map :
  forall (K V : Type) (keq : K -> K -> bool) (khash : K -> N),
  good_keys K keq khash ->
  forall (nchains : nat) (os : list (hop K V)), nchains > 0 ->
  exists t,
    hrun K V keq khash os (hash_create nchains) = Ok (snd (frun keq fempty os)) t /\
    (exists ks, hash_keys t = Some ks /\ lists_keys keq (fst (frun keq fempty os)) ks /\
                hash_length t = u32 (N.of_nat (length ks))) /\
    (exists t', hash_clone K V keq khash t = Ok true t' /\
       forall os', exists t1 t2 xs,
         hrun K V keq khash os' t = Ok xs t1 /\ hrun K V keq khash os' t' = Ok xs t2 /\
         xs = snd (frun keq (fst (frun keq fempty os)) os')).
Proof. exact hash_refines_map. Qed.
Print Assumptions C36_hash_table_is_finite_map.

(** Non-vacuity: two chains, colliding keys, replacement and deletion. *)
Example C36_hyps : good_keys N N.eqb (fun k => (k * 7)%N).
Proof.
  repeat split; intros; rewrite ?N.eqb_eq in *; subst; auto; apply N.eqb_refl.
Qed.
Example C36_run :
  exists t, hrun N N N.eqb (fun k => (k * 7)%N)
    [HAdd (Some 1) (Some 10) false; HAdd (Some 3) (Some 30) false; HAdd (Some 1) (Some 11) false;
     HAdd (Some 1) (Some 12) true; HGet (Some 1); HDel (Some 3); HGet (Some 3); HAdd None (Some 1) true]%N
    (hash_create 2)
  = Ok [OBool true; OBool true; OBool false; OBool true; OVal (Some 12); OVal (Some 30); OVal None; OBool false]%N t
  /\ hash_length t = 1%N.
Proof. eexists. vm_compute. split; reflexivity. Qed.
