(** What list requests mean: one live list per request. *)
From Coq Require Import List Arith NArith Bool.
From Verif Require Import Base StringModel StringSpec RegModel.
Import ListNotations.

(** ** Requests that mean the same list: the same root, kind and names; NULL is
    the empty string, and HTML documents ignore the case of ASCII letters *)
Definition text_of (v : option bytes) : bytes := match v with Some b => b | None => [] end.
Definition alike (caseless : bool) (a b : option bytes) : Prop :=
  if caseless then Forall2 same_but_case (text_of a) (text_of b) else text_of a = text_of b.
Inductive same_request : request -> request -> Prop :=
| sr_children : same_request Children Children
| sr_name c a b : alike c a b -> same_request (ByName c a) (ByName c b)
| sr_ns c n m a b : alike c n m -> alike c a b -> same_request (ByNamespace c n a) (ByNamespace c m b).

(** ** Calls of a client on one document *)
Inductive rop := RGet (root : nat) (q : request) | RRef (l : nat) | RUnref (l : nat) | RDocRef | RDocUnref.
Definition rexec (o : rop) : M reg (option nat) :=
  (match o with
  | RGet root q => l <- get_nodelist root q ;; ret (Some l)
  | RRef l => nodelist_ref l ;;; ret None
  | RUnref l => nodelist_unref l ;;; ret None
  | RDocRef => node_ref 0 ;;; ret None
  | RDocUnref => node_unref 0 ;;; ret None
  end)%dom.
(** A new document, which the client owns. *)
Definition new_reg : reg := mkReg (fun _ => None) (fun _ => None) None 0 0 (fun n => if Nat.eqb n 0 then 1%N else 0%N) true.

(** ** What the client holds: the document so many times, and lists *)
Record held := mkHeld { h_list : nat; h_root : nat; h_req : request; h_count : N }.
Record hands := mkHands { hd_doc : N; hd_lists : list held }.

(** The lists after one more, or one less, reference to [l]. *)
Definition more (l : nat) (hs : list held) : list held :=
  map (fun h => if Nat.eqb (h_list h) l then mkHeld l (h_root h) (h_req h) (h_count h + 1) else h) hs.
Definition fewer (l : nat) (hs : list held) : list held :=
  filter (fun h => negb (h_count h =? 0)%N)
    (map (fun h => if Nat.eqb (h_list h) l then mkHeld l (h_root h) (h_req h) (h_count h - 1) else h) hs).
(** [l] is the answer to a request. *)
Definition got (l root : nat) (q : request) (hs : list held) : list held :=
  if existsb (fun h => Nat.eqb (h_list h) l) hs then more l hs else mkHeld l root q 1 :: hs.

Definition takes (o : rop) (r : option nat) (g : hands) : hands :=
  match o, r with
  | RGet root q, Some l => mkHands (hd_doc g) (got l root q (hd_lists g))
  | RGet _ _, None => g
  | RRef l, _ => mkHands (hd_doc g) (more l (hd_lists g))
  | RUnref l, _ => mkHands (hd_doc g) (fewer l (hd_lists g))
  | RDocRef, _ => mkHands (hd_doc g + 1) (hd_lists g)
  | RDocUnref, _ => mkHands (hd_doc g - 1) (hd_lists g)
  end.

(** The client uses what it holds, and names its elements. *)
Definition holds_list (g : hands) (l : nat) : Prop := In l (map h_list (hd_lists g)).
Definition rlegal (g : hands) (o : rop) : Prop :=
  match o with
  | RGet _ q => (0 < hd_doc g)%N /\ (forall c, q <> ByName c None)
  | RRef l | RUnref l => holds_list g l
  | RDocRef | RDocUnref => (0 < hd_doc g)%N
  end.
Inductive rreach : nat -> reg -> hands -> Prop :=
| rr_start : rreach 0 new_reg (mkHands 1 [])
| rr_call k s g o r s' : rreach k s g -> rlegal g o -> rexec o s = Ok r s' -> rreach (S k) s' (takes o r g).
(** Histories shorter than the 32-bit counts. *)
Definition brief (k : nat) : Prop := (N.of_nat k < 1000000000)%N.

(** ** The lists a document remembers: from doc->nodelists along the next pointers *)
Inductive remembers (s : reg) : option nat -> list nat -> Prop :=
| rm_end : remembers s None []
| rm_next e x ls : r_ents s e = Some x -> remembers s (en_next x) ls -> remembers s (Some e) (en_list x :: ls).
