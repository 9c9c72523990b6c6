(** C52: node lists are shared, counted and forgotten. *)
From Coq Require Import List Arith NArith Bool.
From Verif Require Import Base StringModel StringSpec RegModel RegSpec RegProofs RegWitness.
Import ListNotations.

(** A request is answered by the live list of an equal request, or by a new list if
    there is none. *)
Theorem C52_get k s g root q : rreach k s g -> brief k -> rlegal g (RGet root q) ->
  exists l s', rexec (RGet root q) s = Ok (Some l) s' /\
    ((exists h, In h (hd_lists g) /\ h_root h = root /\ same_request (h_req h) q /\ h_list h = l) \/
     ((forall h, In h (hd_lists g) -> h_root h = root -> ~ same_request (h_req h) q) /\ r_lists s l = None)).
Proof. exact (reg_get k s g root q). Qed.

(** Asking twice answers the same list, with its count one higher. *)
Theorem C52_asked_twice k s g root q q' : rreach k s g -> brief (S k) -> rlegal g (RGet root q) -> rlegal g (RGet root q') -> same_request q q' ->
  exists l s' s'' n m, rexec (RGet root q) s = Ok (Some l) s' /\ rexec (RGet root q') s' = Ok (Some l) s'' /\
    r_lists s' l = Some n /\ r_lists s'' l = Some m /\ nl_ref m = (nl_ref n + 1)%N /\ nl_root m = root.
Proof. exact (reg_twice k s g root q q'). Qed.

(** The count of every list is the number of references given out and not taken
    back; a list nobody holds does not exist. *)
Theorem C52_counts k s g : rreach k s g -> brief k ->
  NoDup (map h_list (hd_lists g)) /\
  (forall h, In h (hd_lists g) -> (0 < h_count h)%N /\ r_lists s (h_list h) = Some (mkNlist (h_root h) (h_req h) (h_count h))) /\
  (forall l, ~ holds_list g l -> r_lists s l = None).
Proof. exact (reg_counts k s g). Qed.

(** Releasing lowers the count; the last release frees the list and the document
    forgets it; other lists are left alone. *)
Theorem C52_release k s g h : rreach k s g -> brief (S k) -> In h (hd_lists g) ->
  exists s', rexec (RUnref (h_list h)) s = Ok None s' /\
    (h_count h = 1%N -> r_lists s' (h_list h) = None /\ forall ls, remembers s' (r_head s') ls -> ~ In (h_list h) ls) /\
    ((1 < h_count h)%N -> r_lists s' (h_list h) = Some (mkNlist (h_root h) (h_req h) (h_count h - 1))) /\
    (forall l, l <> h_list h -> r_lists s' l = r_lists s l).
Proof. exact (reg_release k s g h). Qed.

(** The document remembers exactly the live lists. *)
Theorem C52_registered k s g : rreach k s g -> brief k -> remembers s (r_head s) (map h_list (hd_lists g)).
Proof. exact (reg_registered k s g). Qed.

(** The document lives as long as the client holds it or a list of it, and no longer. *)
Theorem C52_document k s g : rreach k s g -> brief k -> (r_alive s = true <-> (0 < hd_doc g)%N \/ hd_lists g <> []).
Proof. exact (reg_document k s g). Qed.

(** Each live list keeps one reference on its root, and released lists keep none. *)
Theorem C52_roots k s g n : rreach k s g -> brief k -> n <> 0 ->
  r_ref s n = N.of_nat (length (filter (fun h => Nat.eqb (h_root h) n) (hd_lists g))).
Proof. exact (reg_roots k s g n). Qed.

(** No call of a client that uses what it holds goes wrong. *)
Theorem C52_safe k s g o : rreach k s g -> brief k -> rlegal g o -> exists r s', rexec o s = Ok r s'.
Proof. exact (reg_safe k s g o). Qed.

(** ** The theorems are about something *)
Example C52_history : rreach 5 (rstate asks) (rhands asks) /\ brief 5.
Proof. split; [exact asks_reach|reflexivity]. Qed.
Example C52_history_lists : map (fun h => (h_list h, h_root h, h_count h)) (hd_lists (rhands asks)) = [(2, 3, 1%N); (1, 3, 1%N); (0, 0, 2%N)].
Proof. vm_compute. reflexivity. Qed.
Example C52_history_alive : hd_doc (rhands asks) = 0%N /\ r_alive (rstate asks) = true.
Proof. vm_compute. auto. Qed.
Example C52_history_end : rreach 9 (rstate last_asks) (rhands last_asks) /\ hd_lists (rhands last_asks) = [] /\ r_alive (rstate last_asks) = false.
Proof. split; [exact last_asks_reach|]. vm_compute. auto. Qed.
Example C52_same : same_request (ByName true name_p) (ByName true name_P) /\ rlegal (mkHands 1 []) (RGet 0 (ByName true name_P)).
Proof.
  split.
  - constructor. apply same_string_iff. vm_compute. reflexivity.
  - split; [reflexivity|]. intros c H. discriminate H.
Qed.

Definition reg_theorems := (C52_get, C52_asked_twice, C52_counts, C52_release, C52_registered, C52_document, C52_roots, C52_safe).
Print Assumptions reg_theorems.
