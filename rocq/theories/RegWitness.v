(** A concrete history of list requests. *)
From Coq Require Import List Arith NArith Bool Lia.
From Verif Require Import Base StringModel StringSpec StringProofs RegModel RegSpec RegProofs.
Import ListNotations.

Fixpoint rplay (ops : list rop) (s : reg) (g : hands) : option (reg * hands) :=
  match ops with
  | [] => Some (s, g)
  | o :: t => match rexec o s with Ok r s' => rplay t s' (takes o r g) | _ => None end
  end.
Definition rlegalb (g : hands) (o : rop) : bool :=
  match o with
  | RGet _ q => (0 <? hd_doc g)%N && match q with ByName _ None => false | _ => true end
  | RRef l | RUnref l => existsb (Nat.eqb l) (map h_list (hd_lists g))
  | RDocRef | RDocUnref => (0 <? hd_doc g)%N
  end.
Fixpoint rplayb (ops : list rop) (s : reg) (g : hands) : bool :=
  match ops with
  | [] => true
  | o :: t => rlegalb g o && match rexec o s with Ok r s' => rplayb t s' (takes o r g) | _ => false end
  end.
Lemma rlegalb_ok g o : rlegalb g o = true -> rlegal g o.
Proof.
  destruct o as [root q|l|l| |]; cbn [rlegalb rlegal].
  - rewrite andb_true_iff, N.ltb_lt. intros [H Q]. split; auto. intros c ->. discriminate.
  - intros H. apply existsb_exists in H. destruct H as (x & I & E). apply Nat.eqb_eq in E. subst. exact I.
  - intros H. apply existsb_exists in H. destruct H as (x & I & E). apply Nat.eqb_eq in E. subst. exact I.
  - apply N.ltb_lt.
  - apply N.ltb_lt.
Qed.
Lemma rplayed : forall ops k s g, rreach k s g -> rplayb ops s g = true -> exists s' g', rplay ops s g = Some (s', g') /\ rreach (length ops + k) s' g'.
Proof.
  induction ops as [|o t IH]; intros k s g H P; cbn [rplayb rplay] in *.
  - exists s, g. auto.
  - apply andb_true_iff in P. destruct P as [L P]. destruct (rexec o s) as [r s'| |] eqn:E; try discriminate.
    destruct (IH (S k) s' _ (rr_call _ _ _ _ _ _ H (rlegalb_ok _ _ L) E) P) as (s2 & g2 & H1 & H2).
    exists s2, g2. split; auto. cbn [length]. rewrite Nat.add_succ_r in H2. auto.
Qed.
Definition rstate (ops : list rop) : reg := match rplay ops new_reg (mkHands 1 []) with Some p => fst p | None => new_reg end.
Definition rhands (ops : list rop) : hands := match rplay ops new_reg (mkHands 1 []) with Some p => snd p | None => mkHands 1 [] end.
Lemma rplayed_reach ops : rplayb ops new_reg (mkHands 1 []) = true -> rreach (length ops) (rstate ops) (rhands ops).
Proof.
  intros P. destruct (rplayed ops 0 new_reg _ rr_start P) as (s & g & H & R). unfold rstate, rhands. rewrite H. rewrite Nat.add_0_r in R. exact R.
Qed.

(** A list of p elements, asked for twice in different case, the children of node 3,
    and another list by namespace; then the document is let go. *)
Definition name_p : option bytes := Some [112%N].
Definition name_P : option bytes := Some [80%N].
Definition asks : list rop :=
  [RGet 0 (ByName true name_p); RGet 3 Children; RGet 0 (ByName true name_P); RGet 3 (ByNamespace false None name_p); RDocUnref].
Lemma asks_reach : rreach 5 (rstate asks) (rhands asks).
Proof. exact (rplayed_reach asks eq_refl). Qed.
Definition last_asks : list rop := asks ++ [RUnref 1; RUnref 0; RUnref 2; RUnref 0].
Lemma last_asks_reach : rreach 9 (rstate last_asks) (rhands last_asks).
Proof. exact (rplayed_reach last_asks eq_refl). Qed.
