(** Model of src/utils/hashtable.c. *)
From Coq Require Import List Arith NArith Bool.
From Verif Require Import Base.
Import ListNotations.
Local Open Scope dom_scope.

Section Hash.
  (** Keys, values and the client vtable (src/utils/hashtable.h): [hash] and
      [key_isequal].  The [pw] argument is client data and is left out. *)
  Variables K V : Type.
  Variable keq : K -> K -> bool.
  Variable khash : K -> N.

  (** struct dom_hash_table, hashtable.c:30-36.  A chain (singly linked list of
      struct _dom_hash_entry, :23-27) is the list of its (key, value) pairs. *)
  Record htable : Type := mkHt { ht_chains : list (list (K * V)); ht_nentries : N }.

  (** hashtable.c:51-70; [calloc] gives NULL chains. *)
  Definition hash_create (chains : nat) : htable := mkHt (repeat [] chains) 0.

  (** hashtable.c:163, 207, 234: c = h % ht->nchains; undefined for 0 chains. *)
  Definition chain_index (t : htable) (k : K) : option nat :=
    match length (ht_chains t) with
    | O => None
    | S _ as n => Some (N.to_nat (N.modulo (u32 (khash k)) (N.of_nat n)))
    end.

  Fixpoint set_nth {A} (l : list A) (i : nat) (x : A) : list A :=
    match l, i with
    | [], _ => []
    | _ :: r, O => x :: r
    | y :: r, S j => y :: set_nth r j x
    end.

  (** The search loop of hashtable.c:165-174 with replacement of the value. *)
  Fixpoint chain_replace (l : list (K * V)) (k : K) (v : V) : option (list (K * V)) :=
    match l with
    | [] => None
    | (k', v') :: r =>
        if keq k k' then Some ((k', v) :: r)
        else match chain_replace r k v with
             | Some r' => Some ((k', v') :: r')
             | None => None
             end
    end.

  Fixpoint chain_find (l : list (K * V)) (k : K) : option V :=
    match l with
    | [] => None
    | (k', v') :: r => if keq k k' then Some v' else chain_find r k
    end.

  (** The search-and-unlink loop of hashtable.c:236-251. *)
  Fixpoint chain_del (l : list (K * V)) (k : K) : option (V * list (K * V)) :=
    match l with
    | [] => None
    | (k', v') :: r =>
        if keq k k' then Some (v', r)
        else match chain_del r k with
             | Some (x, r') => Some (x, (k', v') :: r')
             | None => None
             end
    end.

  (** _dom_hash_add, hashtable.c:153-189.  NULL key or value: [None]. *)
  Definition hash_add (k : option K) (v : option V) (replace : bool) : M htable bool :=
    fun t =>
      match k, v with
      | Some k, Some v =>
          match chain_index t k with
          | None => Bad DivByZero
          | Some c =>
              let ch := nth c (ht_chains t) [] in
              match chain_replace ch k v with
              | Some ch' =>
                  if replace then Ok true (mkHt (set_nth (ht_chains t) c ch') (ht_nentries t))
                  else Ok false t
              | None =>
                  Ok true (mkHt (set_nth (ht_chains t) c ((k, v) :: ch)) (u32 (ht_nentries t + 1)))
              end
          end
      | _, _ => Ok false t
      end.

  (** _dom_hash_get, hashtable.c:198-215. *)
  Definition hash_get (k : option K) : M htable (option V) :=
    fun t =>
      match k with
      | None => Ok None t
      | Some k =>
          match chain_index t k with
          | None => Bad DivByZero
          | Some c => Ok (chain_find (nth c (ht_chains t) []) k) t
          end
      end.

  (** _dom_hash_del, hashtable.c:224-254. *)
  Definition hash_del (k : option K) : M htable (option V) :=
    fun t =>
      match k with
      | None => Ok None t
      | Some k =>
          match chain_index t k with
          | None => Bad DivByZero
          | Some c =>
              match chain_del (nth c (ht_chains t) []) k with
              | Some (v, ch') =>
                  Ok (Some v) (mkHt (set_nth (ht_chains t) c ch') (u32 (ht_nentries t + (two32 - 1))))
              | None => Ok None t
              end
          end
      end.

  (** _dom_hash_get_length, hashtable.c:296-299. *)
  Definition hash_length (t : htable) : N := ht_nentries t.

  (** The iterator context of _dom_hash_iterate, hashtable.c:264-287: the chain
      number *c1 and the position in that chain *c2 (None = NULL). *)
  Definition iter_ctx : Type := option (nat * nat).

  (** hashtable.c:280-285: advance to the first entry of the next non-empty chain. *)
  Fixpoint next_chain (chains : list (list (K * V))) (c : nat) : option (nat * K) :=
    match chains with
    | [] => None
    | ((k, _) :: _) :: _ => Some (c, k)
    | [] :: r => next_chain r (S c)
    end.

  (** One call of _dom_hash_iterate, hashtable.c:264-287. *)
  Definition hash_iterate (t : htable) (ctx : iter_ctx) : option (K * iter_ctx) :=
    let scan c := match next_chain (skipn c (ht_chains t)) c with
                  | Some (c', k) => Some (k, Some (c', 0))
                  | None => None
                  end in
    match ctx with
    | None => scan 0
    | Some (c, i) =>
        match nth_error (nth c (ht_chains t) []) (S i) with
        | Some (k, _) => Some (k, Some (c, S i))
        | None => scan (S c)
        end
    end.

  (** The iteration loop as used by hashtable.c:90 (fuelled; [None] = out of fuel). *)
  Fixpoint hash_keys_from (fuel : nat) (t : htable) (ctx : iter_ctx) : option (list K) :=
    match fuel with
    | O => None
    | S f =>
        match hash_iterate t ctx with
        | None => Some []
        | Some (k, ctx') =>
            match hash_keys_from f t ctx' with
            | Some ks => Some (k :: ks)
            | None => None
            end
        end
    end.

  Definition hash_size_bound (t : htable) : nat := S (length (concat (ht_chains t))).
  Definition hash_keys (t : htable) : option (list K) := hash_keys_from (hash_size_bound t) t None.

  (** _dom_hash_clone, hashtable.c:79-112, with identity as clone_key and
      clone_value (the vtable's clones are equal copies).  [Some None] is the
      NULL result of a failed add. *)
  Fixpoint clone_loop (ks : list K) (t ret : htable) : res htable bool :=
    match ks with
    | [] => Ok true ret
    | k :: ks' =>
        match hash_get (Some k) t with
        | Ok v _ =>
            match hash_add (Some k) v false ret with
            | Ok true ret' => clone_loop ks' t ret'
            | Ok false ret' => Ok false ret'
            | Exc e s => Exc e s
            | Bad b => Bad b
            end
        | Exc e s => Exc e s
        | Bad b => Bad b
        end
    end.
  Definition hash_clone (t : htable) : res htable bool :=
    match hash_keys t with
    | None => Bad OutOfFuel
    | Some ks => clone_loop ks t (hash_create (length (ht_chains t)))
    end.

  (** Histories of calls. *)
  Inductive hop : Type :=
  | HAdd (k : option K) (v : option V) (replace : bool)
  | HGet (k : option K)
  | HDel (k : option K).
  Inductive hout : Type := OBool (b : bool) | OVal (v : option V).

  Definition hstep (o : hop) : M htable hout :=
    match o with
    | HAdd k v r => b <- hash_add k v r ;; ret (OBool b)
    | HGet k => v <- hash_get k ;; ret (OVal v)
    | HDel k => v <- hash_del k ;; ret (OVal v)
    end.
  Fixpoint hrun (os : list hop) : M htable (list hout) :=
    match os with
    | [] => ret []
    | o :: r => x <- hstep o ;; xs <- hrun r ;; ret (x :: xs)
    end.
End Hash.
Arguments mkHt {K V}. Arguments ht_chains {K V}. Arguments ht_nentries {K V}.
Arguments hash_create {K V}. Arguments hash_length {K V}. Arguments hash_keys {K V}.
Arguments HAdd {K V}. Arguments HGet {K V}. Arguments HDel {K V}.
Arguments OBool {V}. Arguments OVal {V}.
