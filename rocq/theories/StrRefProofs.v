(** The count of a string's references: every function gives back as many as it took,
    or keeps them where they are counted. *)
From Coq Require Import List NArith Bool Arith Lia ZifyBool ZifyNat ZifyN Permutation.
From Verif Require Import Base StringModel StrRefModel StrRefSpec.
Import ListNotations.
Local Open Scope dom_scope.

Lemma bind_ok {S A B} (m : M S A) (f : A -> M S B) s a s' : m s = Ok a s' -> bind m f s = f a s'.
Proof. unfold bind. intros ->. reflexivity. Qed.
Lemma bind_exc {S A B} (m : M S A) (f : A -> M S B) s e s' : m s = Exc e s' -> bind m f s = Exc e s'.
Proof. unfold bind. intros ->. reflexivity. Qed.
Ltac st H := rewrite (bind_ok _ _ _ _ _ H).

(** ** Counting *)
Definition one (i j : nat) : nat := if Nat.eq_dec i j then 1 else 0.
Lemma ccons i l j : count_occ Nat.eq_dec (i :: l) j = one i j + count_occ Nat.eq_dec l j.
Proof. unfold one. cbn [count_occ]. destruct (Nat.eq_dec i j); lia. Qed.
Lemma cnil j : count_occ Nat.eq_dec [] j = 0.
Proof. reflexivity. Qed.
Ltac counting :=
  repeat (rewrite count_occ_app || rewrite ccons || rewrite cnil); try lia.
Ltac perm := apply (Permutation_count_occ Nat.eq_dec); intro; counting.

Definition keep (s s' : cst) : Prop :=
  c_nxt s <= c_nxt s' /\ forall i, i < c_nxt s -> c_str s' i <> None -> text s' i = text s i.
Definition evo (s s' : cst) : Prop := keep s s' /\ c_els s' = c_els s /\ c_title s' = c_title s.

Lemma keep_refl s : keep s s.
Proof. split; [lia|]. auto. Qed.
Lemma keep_trans a b c : keep a b -> keep b c -> keep a c.
Proof.
  intros [A1 A2] [B1 B2]. split; [lia|]. intros i L N.
  assert (E := B2 i ltac:(lia) N). rewrite E. apply A2; [exact L|].
  intro Z. unfold text in E. rewrite Z in E. destruct (c_str c i); [discriminate|]. apply N. reflexivity.
Qed.
Lemma evo_refl s : evo s s.
Proof. split; [apply keep_refl|auto]. Qed.
Lemma evo_trans a b c : evo a b -> evo b c -> evo a c.
Proof. intros (A1 & A2 & A3) (B1 & B2 & B3). split; [eapply keep_trans; eauto|]. split; congruence. Qed.

Definition holds (s : cst) (L : list nat) (B : nat) : Prop :=
  (forall i, c_nxt s <= i -> c_str s i = None) /\
  (forall i, refs s i = times i L) /\
  (forall i b c, c_str s i = Some (b, c) -> (0 < c)%N) /\
  length L <= B.

Lemma holds_perm s L L' B : Permutation L L' -> holds s L B -> holds s L' B.
Proof.
  intros P (A & C & D & E). split; [exact A|]. split; [|split; [exact D|]].
  - intro i. rewrite C. unfold times. f_equal. apply (Permutation_count_occ Nat.eq_dec). exact P.
  - rewrite <- (Permutation_length P). exact E.
Qed.
Lemma holds_more s L B B' : holds s L B -> B <= B' -> holds s L B'.
Proof. intros (A & C & D & E) W. repeat (split; [assumption|]). lia. Qed.
Lemma holds_same s s' L B : c_str s' = c_str s -> c_nxt s' = c_nxt s -> holds s L B -> holds s' L B.
Proof. unfold holds, refs. intros -> ->. auto. Qed.

Lemma held_alive s L B i : holds s L B -> In i L -> exists b c, c_str s i = Some (b, c).
Proof.
  intros (_ & C & _) I. assert (E := C i). unfold refs, times in E.
  apply (count_occ_In Nat.eq_dec) in I. destruct (c_str s i) as [[b c]|]; [eauto|lia].
Qed.
Lemma held_old s L B i : holds s L B -> In i L -> i < c_nxt s.
Proof.
  intros H I. destruct (held_alive _ _ _ _ H I) as (b & c & E). destruct H as (A & _).
  destruct (Nat.lt_ge_cases i (c_nxt s)) as [G|G]; [exact G|]. rewrite (A i G) in E. discriminate.
Qed.

Lemma times_cons i j L : times i (j :: L) = (times i L + N.of_nat (one j i))%N.
Proof. unfold times. rewrite ccons. lia. Qed.
Lemma times_len i L : (times i L <= N.of_nat (length L))%N.
Proof. unfold times. generalize (count_occ_bound Nat.eq_dec i L). lia. Qed.

Lemma ref_holds s L B i : holds s L B -> In i L -> (N.of_nat B + 1 < two32)%N ->
  exists s', s_ref i s = Ok tt s' /\ holds s' (i :: L) (S B) /\ evo s s'.
Proof.
  intros H I W. destruct (held_alive _ _ _ _ H I) as (b & c & E). destruct H as (A & C & D & F).
  assert (Ci := C i). unfold refs in Ci. rewrite E in Ci.
  assert (T := times_len i L). unfold two32 in W.
  eexists. unfold s_ref. rewrite E. split; [reflexivity|].
  assert (U : u32 (c + 1) = (c + 1)%N) by (unfold u32; apply N.mod_small; lia).
  rewrite U. split.
  - split; [|split; [|split]].
    + intros j G. cbn [set_str c_str c_nxt] in *. unfold upd.
      destruct (Nat.eqb_spec j i) as [Q|Q]; [subst j; rewrite (A i G) in E; discriminate|apply A; exact G].
    + intro j. rewrite times_cons. unfold refs. cbn [set_str c_str]. unfold upd, one.
      destruct (Nat.eqb_spec j i) as [Q|Q]; destruct (Nat.eq_dec i j) as [Q'|Q']; try congruence.
      * subst j. lia.
      * specialize (C j). unfold refs in C. rewrite C. lia.
    + intros j b' c'. cbn [set_str c_str]. unfold upd.
      destruct (Nat.eqb_spec j i) as [Q|Q]; [|apply D]. intro Z. injection Z as Z1 Z2. subst. lia.
    + cbn [length]. lia.
  - split; [|split; reflexivity]. split; [reflexivity|]. intros j G N. unfold text. cbn [set_str c_str]. unfold upd.
    destruct (Nat.eqb_spec j i) as [Q|Q]; [subst j; rewrite E|]; reflexivity.
Qed.

Lemma unref_holds s L B i : holds s (i :: L) B -> (N.of_nat B + 1 < two32)%N ->
  exists s', s_unref i s = Ok tt s' /\ holds s' L B /\ evo s s'.
Proof.
  intros H W. destruct (held_alive _ _ _ i H ltac:(left; reflexivity)) as (b & c & E). destruct H as (A & C & D & F).
  assert (Ci := C i). unfold refs in Ci. rewrite E, times_cons in Ci.
  assert (T := times_len i L). unfold two32 in W. cbn [length] in F.
  assert (O1 : one i i = 1) by (unfold one; destruct (Nat.eq_dec i i); congruence). rewrite O1 in Ci.
  eexists. unfold s_unref. rewrite E. cbv zeta. split; [reflexivity|].
  assert (U : u32 (c + two32 - 1) = (c - 1)%N).
  { unfold u32, two32. replace (c + 4294967296 - 1)%N with ((c - 1) + 1 * 4294967296)%N by lia.
    rewrite N.mod_add by discriminate. apply N.mod_small. lia. }
  rewrite U. split.
  - split; [|split; [|split]].
    + intros j G. cbn [set_str c_str c_nxt] in *. unfold upd.
      destruct (Nat.eqb_spec j i) as [Q|Q]; [subst j; rewrite (A i G) in E; discriminate|apply A; exact G].
    + intro j. specialize (C j). rewrite times_cons in C. unfold refs in *. cbn [set_str c_str]. unfold upd.
      destruct (Nat.eqb_spec j i) as [Q|Q].
      * subst j. destruct (N.eqb_spec (c - 1) 0) as [Q|Q]; lia.
      * rewrite C. unfold one. destruct (Nat.eq_dec i j); [congruence|lia].
    + intros j b' c'. cbn [set_str c_str]. unfold upd.
      destruct (Nat.eqb_spec j i) as [Q|Q]; [|apply D].
      destruct (N.eqb_spec (c - 1) 0) as [Q2|Q2]; [discriminate|]. intro Z. injection Z as Z1 Z2. subst. lia.
    + lia.
  - split; [|split; reflexivity]. split; [reflexivity|]. intros j G. unfold text. cbn [set_str c_str]. unfold upd.
    destruct (Nat.eqb_spec j i) as [Q|Q]; [|reflexivity]. subst j. rewrite E.
    destruct (N.eqb_spec (c - 1) 0) as [Q2|Q2]; [intro N; exfalso; apply N; reflexivity|reflexivity].
Qed.

Lemma new_holds s L B b : holds s L B ->
  exists s', s_new b s = Ok (c_nxt s) s' /\ holds s' (c_nxt s :: L) (S B) /\ evo s s' /\ text s' (c_nxt s) = Some b.
Proof.
  intros H. assert (OLD := fun i => held_old s L B i H). destruct H as (A & C & D & F).
  eexists. unfold s_new. split; [reflexivity|]. split; [|split].
  - split; [|split; [|split]]; cbn [c_str c_nxt].
    + intros j G. unfold upd. destruct (Nat.eqb_spec j (c_nxt s)) as [Q|Q]; [lia|apply A; lia].
    + intro j. rewrite times_cons. specialize (C j). unfold refs in *. cbn [c_str]. unfold upd, one.
      destruct (Nat.eqb_spec j (c_nxt s)) as [Q|Q]; destruct (Nat.eq_dec (c_nxt s) j) as [Q'|Q']; try congruence.
      * rewrite (A j) in C by lia. lia.
      * rewrite C. lia.
    + intros j b' c'. unfold upd. destruct (Nat.eqb_spec j (c_nxt s)) as [Q|Q]; [|apply D].
      intro Z. injection Z as Z1 Z2. subst. lia.
    + cbn [length]. lia.
  - split; [|split; reflexivity]. split; [cbn [c_nxt]; lia|]. intros j G N. unfold text. cbn [c_str]. unfold upd.
    destruct (Nat.eqb_spec j (c_nxt s)) as [Q|Q]; [lia|reflexivity].
  - unfold text. cbn [c_str]. unfold upd. rewrite Nat.eqb_refl. reflexivity.
Qed.

Lemma oref_holds s L B o : holds s L B -> (forall i, o = Some i -> In i L) -> (N.of_nat B + 1 < two32)%N ->
  exists s', o_ref o s = Ok tt s' /\ holds s' (olist o ++ L) (S B) /\ evo s s'.
Proof.
  intros H I W. destruct o as [i|]; cbn [o_ref olist app].
  - apply ref_holds; auto.
  - exists s. split; [reflexivity|]. split; [eapply holds_more; eauto|apply evo_refl].
Qed.
Lemma ounref_holds s L L' B o : holds s L B -> Permutation L (olist o ++ L') -> (N.of_nat B + 1 < two32)%N ->
  exists s', o_unref o s = Ok tt s' /\ holds s' L' B /\ evo s s'.
Proof.
  intros H P W. apply (holds_perm _ _ _ _ P) in H. destruct o as [i|]; cbn [o_unref olist app] in *.
  - apply unref_holds; auto.
  - exists s. split; [reflexivity|]. split; [exact H|apply evo_refl].
Qed.
Lemma data_holds s L B i : holds s L B -> In i L -> exists b, s_data i s = Ok b s /\ text s i = Some b.
Proof.
  intros H I. destruct (held_alive _ _ _ _ H I) as (b & c & E). exists b. unfold s_data, text. rewrite E. auto.
Qed.

(** ** Elements *)
Lemma el_at_split s e x : el_at s e = Some x ->
  exists A C, c_els s = A ++ Some x :: C /\ length A = e.
Proof.
  unfold el_at. intro E. assert (G : e < length (c_els s)).
  { destruct (Nat.lt_ge_cases e (length (c_els s))) as [G|G]; [exact G|]. rewrite nth_overflow in E by exact G. discriminate. }
  destruct (nth_split _ None G) as (A & C & D & F). rewrite E in D. eauto.
Qed.
Lemma put_split A x C y : put (A ++ x :: C) (length A) y = A ++ y :: C.
Proof. induction A as [|a A IH]; cbn [app length put]; [reflexivity|]. rewrite IH. reflexivity. Qed.

Definition others (s : cst) (e : nat) : list nat :=
  olist (c_title s) ++ flat_map el_strs (put (c_els s) e None).
Lemma kept_at s e x : el_at s e = Some x -> Permutation (kept s) (el_strs (Some x) ++ others s e).
Proof.
  intro E. destruct (el_at_split _ _ _ E) as (A & C & D & F). unfold kept, others. rewrite D, <- F, put_split.
  rewrite !flat_map_app. cbn [flat_map]. perm. 
Qed.
Lemma kept_put s e x y s' : el_at s e = Some x -> c_els s' = put (c_els s) e y -> c_title s' = c_title s ->
  Permutation (kept s') (el_strs y ++ others s e).
Proof.
  intros E P T. destruct (el_at_split _ _ _ E) as (A & C & D & F). unfold kept, others. rewrite P, T, D, <- F, !put_split.
  rewrite !flat_map_app. cbn [flat_map el_strs]. perm.
Qed.
Lemma el_put l e y e' : e < length l -> nth e' (put l e y) None = if Nat.eqb e' e then y else nth e' l None.
Proof.
  revert e e'. induction l as [|a l IH]; intros e e' G; cbn [length] in G; [lia|].
  destruct e as [|e]; destruct e' as [|e']; cbn [put nth Nat.eqb]; try reflexivity. apply IH. lia.
Qed.
Lemma el_len s e x : el_at s e = Some x -> e < length (c_els s).
Proof.
  unfold el_at. intro E. destruct (Nat.lt_ge_cases e (length (c_els s))) as [G|G]; [exact G|].
  rewrite nth_overflow in E by exact G. discriminate.
Qed.

(** A default that was never set is not there. *)
Definition tidy_ctl (c : ctl) : Prop :=
  match c with
  | Plain => True
  | Input dv dvs v vs _ _ _ _ => (dvs = false -> dv = None) /\ (vs = false -> v = None)
  | Area dv dvs _ _ _ => dvs = false -> dv = None
  end.
Definition tidy (s : cst) : Prop := forall e x, el_at s e = Some x -> tidy_ctl (e_ctl x).

Definition inv (s : cst) (own lost : list nat) (B : nat) : Prop :=
  holds s (own ++ lost ++ kept s) B /\ tidy s.

Lemma evo_kept s s' : evo s s' -> kept s' = kept s.
Proof. intros (_ & A & C). unfold kept. rewrite A, C. reflexivity. Qed.
Lemma evo_at s s' e : evo s s' -> el_at s' e = el_at s e.
Proof. intros (_ & A & _). unfold el_at. rewrite A. reflexivity. Qed.
Lemma evo_others s s' e : evo s s' -> others s' e = others s e.
Proof. intros (_ & A & C). unfold others. rewrite A, C. reflexivity. Qed.
Lemma evo_tidy s s' : evo s s' -> tidy s -> tidy s'.
Proof. intros V T e x E. rewrite (evo_at _ _ _ V) in E. exact (T e x E). Qed.

Lemma get_el_ok s e x : el_at s e = Some x -> get_el e s = Ok x s.
Proof. unfold get_el. intros ->. reflexivity. Qed.
Definition with_ctl (x : elem) (c : ctl) : elem := mkElem (e_name x) (e_ns x) (e_prefix x) c.
Lemma set_ctl_ok s e x c : el_at s e = Some x ->
  set_ctl e c s = Ok tt (set_els s (put (c_els s) e (Some (with_ctl x c)))).
Proof. unfold set_ctl. intros ->. reflexivity. Qed.
Lemma set_els_keep s l : keep s (set_els s l).
Proof. split; [reflexivity|]. auto. Qed.

Lemma tidy_put s e x c : el_at s e = Some x -> tidy s -> tidy_ctl c ->
  tidy (set_els s (put (c_els s) e (Some (with_ctl x c)))).
Proof.
  intros E T C e' x' E'. unfold el_at in E'. cbn [set_els c_els] in E'.
  rewrite (el_put _ _ _ _ (el_len _ _ _ E)) in E'. destruct (Nat.eqb e' e).
  - injection E' as <-. exact C.
  - exact (T e' x' E').
Qed.
(** The state after a control's fields were changed. *)
Lemma inv_put s e x c own lost L B : el_at s e = Some x -> tidy s -> tidy_ctl c -> holds s L B ->
  Permutation L (own ++ lost ++ (e_name x :: olist (e_ns x) ++ olist (e_prefix x) ++ ctl_strs c) ++ others s e) ->
  inv (set_els s (put (c_els s) e (Some (with_ctl x c)))) own lost B.
Proof.
  intros E T C H P. split; [|apply tidy_put; assumption].
  apply (holds_same s); [reflexivity|reflexivity|]. refine (holds_perm _ _ _ _ _ H).
  rewrite (kept_put s e x (Some (with_ctl x c)) _ E); [exact P|reflexivity|reflexivity].
Qed.
(** A new element. *)
Lemma inv_add s x own lost L B : tidy s -> tidy_ctl (e_ctl x) -> holds s L B ->
  Permutation L (own ++ lost ++ el_strs (Some x) ++ kept s) ->
  inv (set_els s (c_els s ++ [Some x])) own lost B.
Proof.
  intros T C H P. split.
  - apply (holds_same s); [reflexivity|reflexivity|]. refine (holds_perm _ _ _ _ _ H). rewrite P.
    unfold kept. cbn [set_els c_els c_title]. rewrite flat_map_app. cbn [flat_map]. perm.
  - intros e y E. unfold el_at in E. cbn [set_els c_els] in E.
    destruct (Nat.lt_ge_cases e (length (c_els s))) as [G|G].
    + rewrite app_nth1 in E by exact G. exact (T e y E).
    + rewrite app_nth2 in E by exact G. destruct (e - length (c_els s)) as [|d]; cbn [nth] in E.
      * injection E as <-. exact C.
      * destruct d; discriminate.
Qed.
