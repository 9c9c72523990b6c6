(** Lists of elements after an item is put in or taken out; rows of a section. *)
From Coq Require Import List Arith NArith ZArith Bool Lia ZifyBool ZifyNat ZifyN.
From Verif Require Import Base HeapModel HeapSpec HeapInv HeapExec HeapTree HeapInsert HeapFrame HeapCreate HeapOps HeapRemoveOp HeapAttrNode HeapContent HeapUnref HistModel HistProofs TreeSpec TreeProofs TreeProofs3
  StringModel WalkModel WalkSpec WalkProofs WalkLists WalkFinds WalkReach ContentProofs ImportProofs HtmlModel HtmlSpec HtmlBase HtmlSelect HtmlTake.
Import ListNotations.
Local Open Scope dom_scope.

(** ** Lists *)

Lemma picks_app : forall A (P : A -> Prop) l1 l2 k, picks P (l1 ++ l2) k -> exists k1 k2, k = k1 ++ k2 /\ picks P l1 k1 /\ picks P l2 k2.
Proof.
  intros A P l1. induction l1 as [|x l1 IH]; intros l2 k X; [exists [], k; split; auto; split; auto; constructor|].
  simpl in X. inversion X; subst.
  - destruct (IH _ _ H3) as (k1 & k2 & -> & B & C). exists (x :: k1), k2. split; auto. split; auto. apply picks_yes; auto.
  - destruct (IH _ _ H3) as (k1 & k2 & -> & B & C). exists k1, k2. split; auto. split; auto. apply picks_no; auto.
Qed.
Lemma app_picks : forall A (P : A -> Prop) l1 l2 k1 k2, picks P l1 k1 -> picks P l2 k2 -> picks P (l1 ++ l2) (k1 ++ k2).
Proof. intros A P l1 l2 k1 k2 X Y. induction X; simpl; auto; [apply picks_yes|apply picks_no]; auto. Qed.
Lemma picks_change : forall A (P Q : A -> Prop) l k, (forall x, In x l -> (P x <-> Q x)) -> picks P l k -> picks Q l k.
Proof.
  intros A P Q l k E X. induction X as [|x l k Y X IH|x l k Y X IH]; [constructor| |].
  - apply picks_yes; [apply E; [left|]; auto|]. apply IH. intros; apply E; right; auto.
  - apply picks_no; [|apply IH; intros; apply E; right; auto]. intros Z. apply Y. apply E; [left|]; auto.
Qed.
(** Taking the [Q]s out of [l] takes them out of the [P]s of [l]. *)
Lemma picks_picks : forall A (P Q : A -> Prop) l k l', picks P l k -> picks Q l l' -> exists k', picks P l' k' /\ picks Q k k'.
Proof.
  intros A P Q l k l' X. revert l'. induction X as [|x l k Y X IH|x l k Y X IH]; intros l' Z; inversion Z; subst.
  - exists []. split; constructor.
  - destruct (IH _ H3) as (k' & B & C). exists (x :: k'). split; apply picks_yes; auto.
  - destruct (IH _ H3) as (k' & B & C). exists k'. split; auto. apply picks_no; auto.
  - destruct (IH _ H3) as (k' & B & C). exists k'. split; auto. apply picks_no; auto.
  - destruct (IH _ H3) as (k' & B & C). exists k'. split; auto.
Qed.
Lemma before_app : forall r xs a b, ~ In r a -> before r xs (a ++ r :: b) = a ++ xs ++ r :: b.
Proof.
  intros r xs a b. induction a as [|y a IH]; intros N; simpl; [rewrite Nat.eqb_refl; reflexivity|].
  destruct (Nat.eqb_spec y r) as [->|E]; [exfalso; apply N; left; auto|]. rewrite IH; auto. intros I. apply N. right; auto.
Qed.

Lemma order_within : forall h h' : heap, forall i l, order h i l -> (forall y m, In y l -> children h y m -> children h' y m) -> order h' i l.
Proof.
  intros h h'. fix IH 3. intros i l O. destruct O as [j m ls C F]. intros K. apply (order_node _ j m ls); [apply K; [left; auto|exact C]|].
  assert (K' : forall y m, In y (concat ls) -> children h y m -> children h' y m) by (intros; apply K; [right|]; auto). clear K C.
  revert m ls F K'. fix IH2 3. intros l ls F. destruct F as [|x y l ls O F]; intros K; constructor.
  - apply IH; [exact O|]. intros; apply K; [simpl; apply in_or_app; left|]; auto.
  - apply IH2; [exact F|]. intros; apply K; [simpl; apply in_or_app; right|]; auto.
Qed.
Lemma order_nodup : forall s, linked s -> forall i l, order (s_heap s) i l -> NoDup l.
Proof.
  intros s L i l O. destruct (linked_tree s L i) as (t & R & E). { eapply order_members; [exact O|eapply order_head; eauto]. }
  rewrite (order_pre _ _ R l); [apply (tr_nodup s L); auto|]. rewrite E. exact O.
Qed.
Lemma order_anc : forall s, linked s -> forall i l, order (s_heap s) i l -> forall x, In x l -> anc (s_heap s) i x.
Proof.
  intros s L i l O x I. destruct (linked_tree s L i) as (t & R & E). { eapply order_members; [exact O|eapply order_head; eauto]. }
  rewrite <- E. eapply tr_anc; eauto. rewrite <- (order_pre _ _ R l); auto. rewrite E. exact O.
Qed.

(** ** After an insertion *)
Lemma added_lists : forall (tag : bytes) s s' e row r k, linked s -> added tag s e row r s' -> lists true tag (s_heap s) e k -> NoDup k ->
  (forall x, r = Some x -> In x k /\ parent_of (s_heap s) x = Some e) -> lists true tag (s_heap s') e (insert_at r [row] k).
Proof.
  intros tag s s' e row r k L RW (l & O & P) ND RK. pose proof (order_nodup _ L _ _ O) as NL. pose proof (order_members _ _ _ O) as LV.
  inversion O as [i lc ls C F]. subst i l.
  assert (TAG : forall x, In x k -> In x (e :: concat ls) /\ exists n, s_heap s x = Some n /\ has_tag true tag n) by (intros x I; apply (picks_in _ _ _ _ P _ I)).
  assert (RIN : forall x, r = Some x -> In x lc).
  { intros x X. destruct (RK _ X) as [I PX]. destruct (ln_lists _ L e) as (lc' & CC). { apply LV. left; auto. }
    destruct CC as (ne & N1 & N2 & N3 & N4 & N5). assert (lc' = lc) by (eapply children_det; [exists ne; split; [exact N1|exact N2]|exact C]). subst lc'.
    apply N5. destruct (TAG x I) as (_ & nx & HX & (TX & _)). unfold parent_of in PX. rewrite HX in PX. exists nx. split; auto. split; auto. congruence. }
  destruct (insert_at_split r lc RIN) as (a & b & EL & HB & INS).
  assert (LC' : children (s_heap s') e (a ++ [row] ++ b)). { pose proof (rw_lists _ _ _ _ _ _ RW _ _ C) as Q. rewrite Nat.eqb_refl, INS in Q. exact Q. }
  rewrite EL in F. apply Forall2_app_inv_l in F. destruct F as (la & lb & FA & FB & ->).
  apply NoDup_cons_iff in NL. destruct NL as [NE NL'].
  assert (TR : forall i l, order (s_heap s) i l -> (forall y, In y l -> In y (concat (la ++ lb))) -> order (s_heap s') i l).
  { intros i l Oi SUB. eapply order_within; [exact Oi|]. intros y m I CY. pose proof (rw_lists _ _ _ _ _ _ RW _ _ CY) as Q.
    destruct (Nat.eqb_spec y e) as [->|_]; [exfalso; apply NE; auto|exact Q]. }
  assert (OR : order (s_heap s') row [row]). { apply (order_node _ row [] []); [apply (rw_empty _ _ _ _ _ _ RW)|constructor]. }
  assert (MOVE : forall xs ys, Forall2 (order (s_heap s)) xs ys -> (forall y, In y (concat ys) -> In y (concat (la ++ lb))) -> Forall2 (order (s_heap s')) xs ys).
  { intros xs ys X. induction X as [|u v us vs OU X IH]; intros SUB; constructor; [|apply IH; intros; apply SUB; simpl; apply in_or_app; right; auto].
    apply TR; auto. intros y I. apply SUB. simpl. apply in_or_app. left. auto. }
  assert (FA' : Forall2 (order (s_heap s')) a la) by (apply MOVE; auto; intros y I; rewrite concat_app; apply in_or_app; left; auto).
  assert (FB' : Forall2 (order (s_heap s')) b lb) by (apply MOVE; auto; intros y I; rewrite concat_app; apply in_or_app; right; auto).
  exists (e :: concat (la ++ [[row]] ++ lb)). split.
  { apply (order_node _ e (a ++ [row] ++ b)); auto. apply Forall2_app; auto. constructor; auto. }
  rewrite concat_app. cbn [concat app]. rewrite app_comm_cons. rewrite concat_app, app_comm_cons in P, LV.
  destruct (picks_app _ _ _ _ _ P) as (ka & kb & EK & PA & PB).
  assert (SAME : forall x, In x ((e :: concat la) ++ concat lb) -> ((exists n, s_heap s x = Some n /\ has_tag true tag n) <-> (exists n, s_heap s' x = Some n /\ has_tag true tag n))).
  { intros x I. destruct (LV x I) as (n & H). destruct (rw_nodes _ _ _ _ _ _ RW _ _ H) as (n' & H' & X1 & X2 & _). unfold has_tag.
    split; intros (m & M & Q); [exists n'|exists n]; (split; [auto|]).
    - assert (m = n) by congruence. subst m. rewrite X1, X2. exact Q.
    - assert (m = n') by congruence. subst m. rewrite X1, X2 in Q. exact Q. }
  assert (PA' := picks_change _ _ _ _ _ (fun x I => SAME x (in_or_app _ _ _ (or_introl I))) PA).
  assert (PB' := picks_change _ _ _ _ _ (fun x I => SAME x (in_or_app _ _ _ (or_intror I))) PB).
  assert (KE : insert_at r [row] k = ka ++ row :: kb).
  { destruct r as [x|].
    - destruct b as [|x' b']; [discriminate|]. injection HB as ->. inversion FB as [|? y ? lb' OX FB'' E1 E2]. subst lb. 
      assert (HY : exists m, y = x :: m) by (inversion OX; eexists; reflexivity). destruct HY as (m & ->).
      destruct (RK x eq_refl) as [IX _]. destruct (TAG x IX) as (_ & TX). simpl in PB. inversion PB as [|? ? kb' Y1 Y2|? ? ? Y1 Y2]; subst; [|contradiction].
      cbn [insert_at]. apply (before_app x [row] ka kb'). apply NoDup_remove_2 in ND. intros I. apply ND. apply in_or_app. left; auto.
    - destruct b as [|x' b']; [|discriminate]. inversion FB. subst lb. inversion PB. subst kb. cbn [insert_at]. rewrite EK, app_nil_r. reflexivity. }
  rewrite KE. apply app_picks; auto. apply picks_yes; auto. destruct (rw_row _ _ _ _ _ _ RW) as (n & ne & N1 & _ & N2 & N3 & _). exists n. split; auto. split; auto. right. exists tag. auto.
Qed.

Lemma rowed_lists : forall s s' e row r k, linked s -> rowed s e row r s' -> lists true s_TR (s_heap s) e k -> NoDup k ->
  (forall x, r = Some x -> In x k /\ parent_of (s_heap s) x = Some e) -> lists true s_TR (s_heap s') e (insert_at r [row] k).
Proof. exact (added_lists s_TR). Qed.

(** ** After a removal *)
Lemma taken_lists : forall s ch s' x c name e k, wf s ch -> taken s x s' -> live (s_heap s) x -> lists c name (s_heap s) e k -> type_of (s_heap s) e = Some ELEMENT ->
  ~ anc (s_heap s) x e -> exists k', lists c name (s_heap s') e k' /\ picks (fun y => ~ anc (s_heap s) x y) k k'.
Proof.
  intros s ch s' x c name e k W TK LX (l & O & P) TE NX. pose proof (wf_linked _ _ W) as L. pose proof W as (WL & WT & WO & WR).
  assert (STAY : forall y n, s_heap s y = Some n -> n_type n <> DOCUMENT -> ~ anc (s_heap s) x y -> exists n', s_heap s' y = Some n' /\ n_type n' = n_type n /\ n_name n' = n_name n).
  { intros y n H TD NA. destruct (tk_stays _ _ _ TK y n H NA) as (n' & A & B & C & _); [intros; contradiction|]. exists n'. auto. }
  assert (NOT : forall i lc y, children (s_heap s) i lc -> In y lc -> exists n, s_heap s y = Some n /\ n_parent n = Some i /\ n_type n <> DOCUMENT).
  { intros i lc y C I. assert (LI : live (s_heap s) i) by (destruct C as (a & A & _); exists a; auto). rewrite (children_det _ _ _ _ C (ch_children _ _ WT i LI)) in I.
    destruct (wt_child _ _ WT _ _ I) as (a & b & A1 & A2 & A3 & A4 & _). exists a. split; auto. split; auto. intros Q. destruct (wo_doc _ _ WO _ _ A1 Q) as (_ & Z & _). congruence. }
  assert (ALL : forall i l, order (s_heap s) i l -> anc (s_heap s) x i -> picks (fun y => ~ anc (s_heap s) x y) l []).
  { intros i m Oi AI. assert (Q : forall y, In y m -> anc (s_heap s) x y).
    { intros y I. pose proof (order_anc _ L _ _ Oi _ I) as AY. clear - AI AY. induction AY; auto. eapply anc_step; eauto. }
    clear Oi. induction m as [|y m IH]; [constructor|]. apply picks_no; [intros Z; apply Z, Q; left; auto|]. apply IH. intros; apply Q; right; auto. }
  assert (UP : forall j y n, ~ anc (s_heap s) x j -> s_heap s y = Some n -> n_parent n = Some j -> y <> x -> ~ anc (s_heap s) x y).
  { intros j y n NJ H PN NY Q. inversion Q as [|? n0 p0 Q1 Q2 Q3]; subst; [contradiction|]. apply NJ. assert (p0 = j) by congruence. subst. exact Q3. }
  assert (MAIN : forall i l, order (s_heap s) i l -> (exists n, s_heap s i = Some n /\ n_type n <> DOCUMENT) -> ~ anc (s_heap s) x i ->
    exists l', order (s_heap s') i l' /\ picks (fun y => ~ anc (s_heap s) x y) l l').
  { fix IH 3. intros i m Oi. destruct Oi as [j lc ls C F]. intros (nj & HJ & TJ) NJ.
    destruct (STAY _ _ HJ TJ NJ) as (nj' & HJ' & _). pose proof (tk_lists _ _ _ TK j lc (ex_intro _ nj' HJ') C) as C'.
    assert (K : forall y, In y lc -> exists n, s_heap s y = Some n /\ n_parent n = Some j /\ n_type n <> DOCUMENT) by (intros y I; apply (NOT j lc y C I)).
    assert (Z : exists ls', Forall2 (order (s_heap s')) (without x lc) ls' /\ picks (fun y => ~ anc (s_heap s) x y) (concat ls) (concat ls')).
    { clear C C'. revert lc ls F K. fix IH2 3. intros lc ls F. destruct F as [|y ly lc ls Oy F]; intros K; [exists []; split; constructor|].
      destruct (IH2 lc ls F) as (ls' & A & B). { intros z I. apply K. right. exact I. }
      destruct (K y) as (n & H & PN & TD). { left; auto. } unfold without. cbn [filter]. destruct (Nat.eqb_spec y x) as [EY|NY]; cbn [negb].
      - exists ls'. split; [exact A|]. cbn [concat]. apply (app_picks _ _ ly (concat ls) [] (concat ls')); [|exact B]. apply (ALL y ly Oy). rewrite EY. constructor.
      - destruct (IH y ly Oy) as (ly' & A' & B'). { exists n. auto. }
        { apply (UP j y n NJ H PN NY). }
        exists (ly' :: ls'). split; [constructor; assumption|]. cbn [concat]. apply app_picks; assumption. }
    destruct Z as (ls' & A & B). exists (j :: concat ls'). split; [apply (order_node _ j (without x lc) ls'); assumption|]. apply picks_yes; assumption. }
  unfold type_of in TE. destruct (s_heap s e) as [ne|] eqn:HE; [|discriminate]. cbn in TE. injection TE as TE.
  destruct (MAIN e l O) as (l' & O' & P'); auto. { exists ne. split; auto. congruence. }
  destruct (picks_picks _ _ _ _ _ _ P P') as (k' & Q1 & Q2). exists k'. split; auto. exists l'. split; auto.
  eapply picks_change; [|exact Q1]. intros y I. destruct (picks_in _ _ _ _ P' _ I) as [I0 NA].
  destruct (order_members _ _ _ O y I0) as (n & H).
  assert (TD : n_type n <> DOCUMENT).
  { intros Q. pose proof (order_anc _ L _ _ O _ I0) as AE. destruct (wo_doc _ _ WO _ _ H Q) as (_ & Z & _). inversion AE; subst; congruence. }
  destruct (STAY _ _ H TD NA) as (n' & H' & X1 & X2). unfold has_tag. split; intros (m & M & T0); [exists n'|exists n]; (split; [auto|]).
  - assert (m = n) by congruence. subst m. rewrite X1, X2. exact T0.
  - assert (m = n') by congruence. subst m. rewrite X1, X2 in T0. exact T0.
Qed.
