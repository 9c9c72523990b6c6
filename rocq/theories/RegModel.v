(** The registry of live node lists: src/core/document.c:1313-1417 and the life of
    a list, src/core/nodelist.c:68-196, 416-447.

    Modelled: the list objects with their counts, the doubly linked list of
    registered lists, the references that lists and the client have on the
    document and on root nodes.

    Not modelled: allocation failure; strings' reference counts; the tree (WalkModel
    has the contents of lists); what happens to a root element that loses its last
    reference; pending nodes that keep a document whose count is 0 (HeapModel). *)
From Coq Require Import List Arith NArith Bool.
From Verif Require Import Base StringModel.
Import ListNotations.
Local Open Scope dom_scope.

(** What a list was asked for: enum nodelist_type and the names. *)
Inductive request :=
| Children
| ByName (caseless : bool) (name : option bytes)
| ByNamespace (caseless : bool) (ns local : option bytes).
(** struct dom_nodelist, nodelist.c:24-51. *)
Record nlist := mkNlist { nl_root : nat; nl_req : request; nl_ref : N }.
(** struct dom_doc_nl, document.c:34-42. *)
Record entry := mkEntry { en_list : nat; en_prev : option nat; en_next : option nat }.
(** [r_ref]: reference counts of nodes; node 0 is the document, [r_alive] is
    whether it is not destroyed. *)
Record reg := mkReg { r_lists : nat -> option nlist; r_ents : nat -> option entry; r_head : option nat; r_nl : nat; r_ne : nat;
                      r_ref : nat -> N; r_alive : bool }.

Definition at_ {A} (m : nat -> A) (i : nat) (v : A) (j : nat) : A := if Nat.eqb i j then v else m j.

Definition lload (l : nat) : M reg nlist := fun s => match r_lists s l with Some x => Ok x s | None => Bad UseAfterFree end.
Definition lput (l : nat) (x : option nlist) : M reg unit := fun s =>
  Ok tt (mkReg (at_ (r_lists s) l x) (r_ents s) (r_head s) (r_nl s) (r_ne s) (r_ref s) (r_alive s)).
Definition eload (e : nat) : M reg entry := fun s => match r_ents s e with Some x => Ok x s | None => Bad UseAfterFree end.
Definition eput (e : nat) (x : option entry) : M reg unit := fun s =>
  Ok tt (mkReg (r_lists s) (at_ (r_ents s) e x) (r_head s) (r_nl s) (r_ne s) (r_ref s) (r_alive s)).
(** doc->nodelists *)
Definition head : M reg (option nat) := fun s => if r_alive s then Ok (r_head s) s else Bad UseAfterFree.
Definition set_head (h : option nat) : M reg unit := fun s =>
  if r_alive s then Ok tt (mkReg (r_lists s) (r_ents s) h (r_nl s) (r_ne s) (r_ref s) true) else Bad UseAfterFree.

(** dom_node_ref and dom_node_unref (core/node.h): the document is destroyed when
    its count reaches 0. *)
Definition usable (n : nat) : M reg unit := fun s => if Nat.eqb n 0 && negb (r_alive s) then Bad UseAfterFree else Ok tt s.
Definition node_ref (n : nat) : M reg unit :=
  usable n ;;; fun s => Ok tt (mkReg (r_lists s) (r_ents s) (r_head s) (r_nl s) (r_ne s) (at_ (r_ref s) n (u32 (r_ref s n + 1))) (r_alive s)).
Definition node_unref (n : nat) : M reg unit :=
  usable n ;;; fun s =>
    let c := u32 (r_ref s n + 4294967295) in
    Ok tt (mkReg (r_lists s) (r_ents s) (r_head s) (r_nl s) (r_ne s) (at_ (r_ref s) n c) (r_alive s && negb (Nat.eqb n 0 && (c =? 0)%N))).

(** dom_string_isequal and dom_string_caseless_isequal; whether the strings are
    interned makes no difference (C35). *)
Definition str (v : option bytes) : option dstr := option_map (mk_dstr false) v.
Definition same_string (caseless : bool) (a b : option bytes) : bool :=
  if caseless then string_caseless_isequal (str a) (str b) else string_isequal (str a) (str b).
(** _dom_nodelist_match, nodelist.c:416-447. *)
Definition nodelist_match (x : nlist) (root : nat) (q : request) : bool :=
  if negb (Nat.eqb (nl_root x) root) then false
  else match nl_req x, q with
       | Children, Children => true
       | ByName c a, ByName c' b => Bool.eqb c c' && same_string c a b
       | ByNamespace c n l, ByNamespace c' n' l' => Bool.eqb c c' && (same_string c n n' && same_string c l l')
       | _, _ => false
       end.

(** _dom_nodelist_create, nodelist.c:68-131. *)
Definition nodelist_create (root : nat) (q : request) : M reg nat :=
  node_ref 0 ;;;
  node_ref root ;;;
  (match q with ByName _ None => stuck AssertFail | _ => ret tt end) ;;;
  fun s => Ok (r_nl s) (mkReg (at_ (r_lists s) (r_nl s) (Some (mkNlist root q 1))) (r_ents s) (r_head s) (S (r_nl s)) (r_ne s) (r_ref s) (r_alive s)).
(** dom_nodelist_ref, nodelist.c:138-142. *)
Definition nodelist_ref (l : nat) : M reg unit := x <- lload l ;; lput l (Some (mkNlist (nl_root x) (nl_req x) (u32 (nl_ref x + 1)))).

(** The loop of _dom_document_get_nodelist, document.c:1336-1340. *)
Fixpoint search (fuel : nat) (h : option nat) (root : nat) (q : request) : M reg (option nat) :=
  match h with
  | None => ret None
  | Some e =>
      match fuel with
      | O => stuck OutOfFuel
      | S f =>
          x <- eload e ;;
          y <- lload (en_list x) ;;
          if nodelist_match y root q then ret (Some e) else search f (en_next x) root q
      end
  end.
(** _dom_document_get_nodelist, document.c:1328-1378. *)
Definition get_nodelist (root : nat) (q : request) : M reg nat :=
  h <- head ;;
  fun s => (m <- search (S (r_ne s)) h root q ;;
  match m with
  | Some e => x <- eload e ;; nodelist_ref (en_list x) ;;; ret (en_list x)
  | None =>
      l <- nodelist_create root q ;;
      h <- head ;;
      fun s =>
        let e := r_ne s in
        (eput e (Some (mkEntry l None h)) ;;;
        (match h with Some o => x <- eload o ;; eput o (Some (mkEntry (en_list x) (Some e) (en_next x))) | None => ret tt end) ;;;
        set_head (Some e) ;;;
        ret l) (mkReg (r_lists s) (r_ents s) (r_head s) (r_nl s) (S e) (r_ref s) (r_alive s))
  end) s.

(** The loop of _dom_document_remove_nodelist, document.c:1391-1394. *)
Fixpoint find_entry (fuel : nat) (h : option nat) (l : nat) : M reg (option nat) :=
  match h with
  | None => ret None
  | Some e =>
      match fuel with
      | O => stuck OutOfFuel
      | S f => x <- eload e ;; if Nat.eqb (en_list x) l then ret (Some e) else find_entry f (en_next x) l
      end
  end.
(** _dom_document_remove_nodelist, document.c:1386-1412. *)
Definition remove_nodelist (l : nat) : M reg unit :=
  h <- head ;;
  fun s => (m <- find_entry (S (r_ne s)) h l ;;
  match m with
  | None => ret tt
  | Some e =>
      x <- eload e ;;
      (match en_prev x with
       | Some p => y <- eload p ;; eput p (Some (mkEntry (en_list y) (en_prev y) (en_next x)))
       | None => set_head (en_next x)
       end) ;;;
      (match en_next x with
       | Some n => y <- eload n ;; eput n (Some (mkEntry (en_list y) (en_prev x) (en_next y)))
       | None => ret tt
       end) ;;;
      eput e None
  end) s.
(** dom_nodelist_unref, nodelist.c:152-196. *)
Definition nodelist_unref (l : nat) : M reg unit :=
  x <- lload l ;;
  let c := u32 (nl_ref x + 4294967295) in
  lput l (Some (mkNlist (nl_root x) (nl_req x) c)) ;;;
  if negb (c =? 0)%N then ret tt
  else
    (match nl_req x with ByName _ None => stuck AssertFail | _ => ret tt end) ;;;
    node_unref (nl_root x) ;;;
    remove_nodelist l ;;;
    lput l None ;;;
    node_unref 0.
