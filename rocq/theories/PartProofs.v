(** The caption, the head and the foot of a table. *)
From Coq Require Import List Arith NArith ZArith Bool Lia ZifyBool ZifyNat ZifyN.
From Verif Require Import Base HeapModel HeapSpec HeapInv HeapExec HeapTree HeapInsert HeapFrame HeapCreate HeapOps HeapRemoveOp HeapAttrNode HeapUnref HistModel HistProofs TreeSpec TreeProofs TreeProofs3
  StringModel WalkModel WalkSpec WalkProofs WalkLists WalkFinds WalkReach ContentProofs HeapLoops HtmlModel HtmlSpec HtmlBase HtmlSelect HtmlTake HtmlRows HtmlTable HtmlInsert HtmlTables PartModel PartSpec.
Import ListNotations.
Local Open Scope dom_scope.

Lemma first_in : forall A (P : A -> Prop) l x, first_that P l (Some x) -> In x l /\ P x.
Proof. intros A P l x F. remember (Some x) as o. induction F; try discriminate; [injection Heqo as ->; split; [left|]; auto|destruct IHF; auto; split; [right|]; auto]. Qed.
Lemma first_none : forall A (P : A -> Prop) l, first_that P l None -> forall x, In x l -> ~ P x.
Proof. intros A P l F. remember None as o. induction F; intros y I; [destruct I|discriminate|]. destruct I as [<-|I]; auto. Qed.
Lemma first_last : forall A (P : A -> Prop) l x, (forall y, In y l -> ~ P y) -> P x -> first_that P (l ++ [x]) (Some x).
Proof. intros A P l x N H. induction l as [|y l IH]; cbn; [constructor; auto|]. apply ft_next; [apply N; left; auto|]. apply IH. intros z I. apply N. right; auto. Qed.

Lemma in_without : forall i l y, In y (without i l) -> In y l /\ y <> i.
Proof. intros i l y H. unfold without in H. apply filter_In in H as [A B]. split; auto. intros ->. rewrite Nat.eqb_refl in B. discriminate. Qed.

Section Parts.
  Variable name : bytes.
  Hypothesis NM : name <> [] /\ name <> [42%N].

  Lemma its_wf : forall s ch e o, wf s ch -> its name (s_heap s) e o -> exists ne, s_heap s e = Some ne /\ n_type ne = ELEMENT /\ first_that (part name (s_heap s)) (ch e) o.
  Proof.
    intros s ch e o (WL & WT & _) (T & l & C & F). unfold type_of in T. destruct (s_heap s e) as [ne|] eqn:He; [|discriminate]. exists ne. split; auto. split; [cbn in T; congruence|].
    apply (wfT_children _ _ WT) in C; [|exists ne; auto]. subst l. exact F.
  Qed.
  Lemma get_part : forall s ch e o, wf s ch -> roomy s -> its name (s_heap s) e o -> exists s', table_part name e s = Ok o s' /\ answered s o s'.
  Proof. intros s ch e o W R I. destruct (its_wf _ _ _ _ W I) as (ne & He & T & F). destruct NM. eapply table_part_ok; eauto. Qed.
  Lemma get_none : forall s ch e, wf s ch -> roomy s -> its name (s_heap s) e None -> table_part name e s = Ok None s.
  Proof.
    intros s ch e W R I. destruct (its_wf _ _ _ _ W I) as (ne & He & T & FT). destruct NM as [N1 N2]. pose proof W as (WL & WT & WO & WR).
    destruct (parent_doc _ _ WT WO _ _ He) as (d & nd & OD & HD & TD). { intros (Q & _); congruence. } { congruence. }
    assert (EDC : html_doc e s = Ok d s). { unfold html_doc. step (load_ok _ _ _ He). rewrite OD. step (load_ok _ _ _ HD). reflexivity. }
    destruct (ch_children _ _ WT e (ex_intro _ ne He)) as (ne' & He' & F). assert (ne' = ne) by congruence. subst ne'.
    destruct (child_named_ok s name N1 N2 (ch e) (n_first ne) (fuel_of s) F) as (o' & E & FT'). { pose proof (ch_length s ch WL WT e). unfold fuel_of. lia. }
    rewrite (first_that_det _ _ _ _ _ FT' FT) in *. unfold table_part. step EDC. step (load_ok _ _ _ He).
    assert (EW : with_fuel (fun f => child_named f name (n_first ne)) s = Ok None s) by exact E. step EW. reflexivity.
  Qed.

  Lemma delete_ok : forall s ch e x, wf s ch -> roomy s -> its name (s_heap s) e (Some x) -> ~ read_only (s_heap s) e ->
    exists s' ch', delete_part name e s = Ok tt s' /\ wf s' ch' /\ taken s x s'.
  Proof.
    intros s ch e x W R I NR. destruct (its_wf _ _ _ _ W I) as (ne & He & T & F). destruct (get_part s ch e _ W R I) as (s1 & E1 & A1).
    destruct (first_in _ _ _ _ F) as (IN & n & Hx & TX). pose proof W as (_ & WT & _). destruct (wt_child _ _ WT _ _ IN) as (n' & np & A & B & C & D & _). assert (n' = n) by congruence. subst n'.
    destruct (take_ok s s1 ch e x n W R Hx (proj1 TX) A1) as (s' & ch' & E2 & W' & TK); auto.
    { exists ne; auto. } { unfold type_of. rewrite He. cbn. congruence. }
    exists s', ch'. split; auto. unfold delete_part. step E1. exact E2.
  Qed.

  Lemma create_ok : forall keeps s ch e, wf s ch -> roomy s -> its name (s_heap s) e None -> ~ read_only (s_heap s) e ->
    exists x s', create_part keeps name e s = Ok x s' /\ added name s e x None s' /\ its name (s_heap s') e (Some x).
  Proof.
    intros keeps s ch e W R I NR. destruct (its_wf _ _ _ _ W I) as (ne & He & T & F). pose proof (get_none s ch e W R I) as E0.
    destruct (new_element s ch e ne name W He T) as (d & s0 & ED & EC & FE). set (row := s_nxt s) in *. assert (LE : live (s_heap s) e) by (exists ne; auto).
    destruct (fe_node _ _ _ _ _ _ FE) as (n0 & _ & H0 & _).
    destruct (put_fresh s ch e row name s0 None W FE) with (s1 := s0) as [_ GOOD]; auto. { discriminate. } { exists ne. split; auto. split; auto. eauto. }
    { apply (fe_wf _ _ _ _ _ _ FE). }
    { destruct (fe_keep _ _ _ _ _ _ FE _ _ He) as (ne0 & He0 & B & _). exists ne0. split; auto. destruct B as (_&_&_&_&_&_&_&_&_&_&_&B). pose proof (R _ _ He). unfold no_wrap. rewrite B. lia. }
    destruct GOOD as (s2 & ch2 & E2 & W2 & EDT & CH). { discriminate. }
    destruct (edited_row name s s0 s0 s2 ch e row n0 FE H0 H0 EDT) as (n2 & H2 & LK).
    destruct (settle name s ch e row None s2 ch2 n2 W LE W2 (fe_none _ _ _ _ _ _ FE) (fe_leaf _ _ _ _ _ _ FE)) as (s' & E3 & W9 & RR); auto. { discriminate. }
    { intros j m M. destruct (edited_kept s s0 s0 s2 ch e row name FE) with (j := j) (m := m) as (m1 & m2 & M1 & M2 & KF & RF); auto. { intros a b X. exists b. split; auto. repeat split. }
      exists m2. split; auto. split; auto. destruct (fe_keep _ _ _ _ _ _ FE _ _ M) as (m0 & A & B & _). assert (m0 = m1) by congruence. subst. destruct B as (_&_&_&_&_&_&_&_&_&_&_&B). congruence. }
    exists row, s'. split; [|split; [exact RR|]].
    - unfold create_part. step E0. step ED. step (load_ok _ _ _ He). step EC. unfold append_child. step E2. step E3. reflexivity.
    - pose proof W as (_ & WT & _). destruct (rw_nodes _ _ _ _ _ _ RR e ne He) as (ne' & He' & T' & _). split. { unfold type_of. rewrite He'. cbn. congruence. }
      exists (ch e ++ [row]). split. { pose proof (rw_lists _ _ _ _ _ _ RR e (ch e) (ch_children _ _ WT e LE)) as Q. rewrite Nat.eqb_refl in Q. exact Q. }
      apply first_last.
      + intros y Y (n' & HY & TG). apply (first_none _ _ _ F y Y). destruct (wt_child _ _ WT _ _ Y) as (n & _ & HN & _). exists n. split; auto.
        destruct (rw_nodes _ _ _ _ _ _ RR y n HN) as (n'' & HN' & X1 & X2 & _). assert (n'' = n') by congruence. subst n''. unfold has_tag in *. rewrite X1, X2 in TG. exact TG.
      + destruct (rw_row _ _ _ _ _ _ RR) as (n & ne2 & A & _ & B & C & _). exists n. split; auto. split; auto. right. exists name. auto.
  Qed.

  (** ** Setting a part *)
  Lemma append_ok : forall s ch e c ne nc, wf s ch -> s_heap s e = Some ne -> n_type ne = ELEMENT -> s_heap s c = Some nc -> n_type nc = ELEMENT ->
    (n_ref ne > 0)%N -> (n_ref nc > 0)%N -> no_wrap ne -> no_wrap nc ->
    exists o, first_failure (insert_checks (s_heap s) e c None) o /\
      match o with Some y => append_child e c s = Exc y s | None => exists s' ch', append_child e c s = Ok c s' /\ wf s' ch' /\ put_last s e c s' end.
  Proof.
    intros s ch e c ne nc W He TE Hc TC RE RC WE WC. pose proof W as (WL & WT & _). destruct (tree_exists _ _ _ WL WT c) as (t & Rt & Et). { exists nc; auto. }
    destruct (insert_before_spec s ch e c None W) with (t := t) as (o & FF & Q); auto.
    { exists ne. split; auto. intros (X & _). congruence. } { exists nc. split; auto. intros (X & _). congruence. } { discriminate. } { exists nc; auto. } { exists ne; auto. }
    exists o. split; auto. destruct o as [y|]; [exact Q|]. assert (TY : type_of (s_heap s) c = Some ELEMENT) by (unfold type_of; rewrite Hc; cbn; congruence).
    destruct Q as [[[X _] _]|(_ & h' & E & W' & ED)]; [congruence|]. exists (withh (addlog s (insert_log (s_heap s) e c None t)) h'), (inserted (s_heap s) ch e c None).
    split; [exact E|]. split; [exact W'|]. split; [|eapply edited_content; eauto]. intros j l C. pose proof W' as (_ & WT' & _).
    assert (LJ : live (s_heap s) j) by (destruct C as (a & A & _); exists a; auto).
    assert (LV : live h' j). { destruct (proj1 (edited_content _ _ _ _ ED) j) as [X _]. apply X. auto. }
    apply (wfT_children _ _ WT) in C; auto. subst l. apply (wfT_children _ _ WT'); auto. unfold inserted. rewrite TY. cbn [oid_eqb]. destruct (Nat.eqb_spec j e) as [->|]; reflexivity.
  Qed.

  Lemma set_none : forall want s ch e, wf s ch -> type_of (s_heap s) e = Some ELEMENT -> set_part want name e None s = Exc HIERARCHY_REQUEST_ERR s.
  Proof.
    intros want s ch e W T. pose proof W as (WL & WT & WO & WR). unfold type_of in T. destruct (s_heap s e) as [ne|] eqn:He; [|discriminate]. cbn in T. injection T as T.
    destruct (parent_doc _ _ WT WO _ _ He) as (d & nd & OD & HD & TD). { intros (Q & _); congruence. } { congruence. }
    assert (EDC : html_doc e s = Ok d s). { unfold html_doc. step (load_ok _ _ _ He). rewrite OD. step (load_ok _ _ _ HD). reflexivity. }
    unfold set_part. step EDC. reflexivity.
  Qed.
  (** The call up to the test of the name. *)
  Lemma set_start : forall (want : bytes) s ch e c, want <> [] -> want <> [42%N] -> wf s ch -> type_of (s_heap s) e = Some ELEMENT -> type_of (s_heap s) c = Some ELEMENT ->
    (~ part want (s_heap s) c -> set_part want name e (Some c) s = Exc HIERARCHY_REQUEST_ERR s) /\
    (part want (s_heap s) c -> set_part want name e (Some c) s = (delete_part name e ;;; append_child e c ;;; ret tt) s).
  Proof.
    intros want s ch e c N1 N2 W T TC. pose proof W as (WL & WT & WO & WR). unfold type_of in T. destruct (s_heap s e) as [ne|] eqn:He; [|discriminate]. cbn in T. injection T as T.
    destruct (parent_doc _ _ WT WO _ _ He) as (d & nd & OD & HD & TD). { intros (Q & _); congruence. } { congruence. }
    assert (EDC : html_doc e s = Ok d s). { unfold html_doc. step (load_ok _ _ _ He). rewrite OD. step (load_ok _ _ _ HD). reflexivity. }
    unfold type_of in TC. destruct (s_heap s c) as [nc|] eqn:Hc; [|discriminate]. cbn in TC. injection TC as TC.
    pose proof (named_iff want nc N1 N2) as NI. unfold element_node in NI. rewrite TC in NI. cbn [ntype_eqb andb] in NI.
    assert (PI : part want (s_heap s) c <-> caseless_isequal (Some want) (n_name nc) = true). { rewrite NI. split; [intros (m & M & Q); congruence|intros Q; exists nc; auto]. }
    split; intros P; unfold set_part; step EDC; step (load_ok _ _ _ Hc).
    - destruct (caseless_isequal (Some want) (n_name nc)); [exfalso; apply P; apply PI; reflexivity|reflexivity].
    - apply PI in P. rewrite P. reflexivity.
  Qed.

  Lemma put_its : forall s s' e c l, put_last s e c s' -> children (s_heap s) e l -> type_of (s_heap s) e = Some ELEMENT -> part name (s_heap s) c ->
    (forall y, In y l -> live (s_heap s) y) -> (forall y, In y l -> part name (s_heap s) y -> y = c) -> its name (s_heap s') e (Some c).
  Proof.
    intros s s' e c l (LS & LV & SC) C T PC LL NO. unfold type_of in T. destruct (s_heap s e) as [ne|] eqn:He; [|discriminate]. cbn in T. injection T as T.
    assert (PP : forall y, live (s_heap s) y -> (part name (s_heap s') y <-> part name (s_heap s) y)).
    { intros y (n & H). destruct (proj1 (LV y)) as (n' & H'); [exists n; auto|]. destruct (SC y n n' H H') as (A & _ & B & _).
      split; intros (m & M & Q); [exists n|exists n']; (split; [assumption|]); unfold has_tag in *; [assert (m = n') by congruence|assert (m = n) by congruence]; subst m; [rewrite A, B in Q|rewrite A, B]; exact Q. }
    destruct (proj1 (LV e)) as (ne' & He'); [exists ne; auto|]. destruct (SC e ne ne' He He') as (A & _). split. { unfold type_of. rewrite He'. cbn. congruence. }
    exists (without c l ++ [c]). split. { pose proof (LS e l C) as Q. rewrite Nat.eqb_refl in Q. exact Q. }
    apply first_last.
    - intros y Y P. apply in_without in Y as [Y NY]. apply NY. apply NO; auto. apply PP; auto.
    - apply PP; auto. destruct PC as (n & H & _). exists n; auto.
  Qed.

  Lemma set_new : forall want s ch e c, want <> [] -> want <> [42%N] -> wf s ch -> roomy s -> its name (s_heap s) e None -> part want (s_heap s) c ->
    (exists ne, s_heap s e = Some ne /\ (n_ref ne > 0)%N) -> (exists nc, s_heap s c = Some nc /\ (n_ref nc > 0)%N) ->
    exists o, first_failure (insert_checks (s_heap s) e c None) o /\
      match o with
      | Some y => set_part want name e (Some c) s = Exc y s
      | None => exists s' ch', set_part want name e (Some c) s = Ok tt s' /\ wf s' ch' /\ put_last s e c s'
      end.
  Proof.
    intros want s ch e c N1 N2 W R I P (ne & He & RE) (nc & Hc & RC). assert (TC : n_type nc = ELEMENT) by (destruct P as (m & M & Q & _); congruence).
    pose proof I as (T & _). destruct (set_start want s ch e c N1 N2 W T) as [_ ES]. { unfold type_of. rewrite Hc. cbn. congruence. } specialize (ES P).
    assert (TE : n_type ne = ELEMENT) by (unfold type_of in T; rewrite He in T; cbn in T; congruence).
    destruct (append_ok s ch e c ne nc W He TE Hc TC RE RC) as (o & FF & Q). { pose proof (R _ _ He). unfold no_wrap. lia. } { pose proof (R _ _ Hc). unfold no_wrap. lia. }
    assert (ED : delete_part name e s = Ok tt s) by (unfold delete_part; step (get_none s ch e W R I); reflexivity).
    exists o. split; auto. rewrite ES. step ED. destruct o as [y|].
    - unfold bind. rewrite Q. reflexivity.
    - destruct Q as (s' & ch' & E & W' & PL). exists s', ch'. split; auto. step E. reflexivity.
  Qed.

  Lemma beside : forall s ch e x y, wf s ch -> live (s_heap s) e -> In x (ch e) -> In y (ch e) -> y <> x -> ~ anc (s_heap s) x y.
  Proof.
    intros s ch e x y W LE X Y NE A. pose proof W as (_ & WT & _). destruct (wt_child _ _ WT _ _ X) as (nx & ne & HX & _ & _ & PX & _). destruct (wt_child _ _ WT _ _ Y) as (ny & _ & HY & _ & _ & PY & _).
    inversion A as [|i n q H P A']; subst; [contradiction|]. assert (n = ny) by congruence. subst n. assert (q = e) by congruence. subst q.
    apply (not_both s ch e x W LE); auto. { exists nx; auto. } { eapply anc_step; [exact HX|exact PX|constructor]. }
    intros ->. exact (anc_proper_neq _ _ _ _ _ (wt_rooted _ _ WT e LE) HX PX (anc_refl _ _) eq_refl).
  Qed.

  Lemma set_old : forall want s ch e x c, want <> [] -> want <> [42%N] -> wf s ch -> roomy s -> its name (s_heap s) e (Some x) -> ~ read_only (s_heap s) e -> part want (s_heap s) c ->
    ~ anc (s_heap s) x c -> (exists ne, s_heap s e = Some ne /\ (n_ref ne > 0)%N) -> (exists nc, s_heap s c = Some nc /\ (n_ref nc > 0)%N) ->
    exists s1 ch1 o, taken s x s1 /\ wf s1 ch1 /\ part want (s_heap s1) c /\ first_failure (insert_checks (s_heap s1) e c None) o /\
      match o with
      | Some y => set_part want name e (Some c) s = Exc y s1
      | None => exists s' ch', set_part want name e (Some c) s = Ok tt s' /\ wf s' ch' /\ put_last s1 e c s'
      end.
  Proof.
    intros want s ch e x c N1 N2 W R I NR P AC (ne & He & RE) (nc & Hc & RC). assert (TC : n_type nc = ELEMENT) by (destruct P as (m & M & Q & _); congruence).
    pose proof I as (T & _). destruct (set_start want s ch e c N1 N2 W T) as [_ ES]. { unfold type_of. rewrite Hc. cbn. congruence. } specialize (ES P).
    assert (TE : n_type ne = ELEMENT) by (unfold type_of in T; rewrite He in T; cbn in T; congruence).
    destruct (delete_ok s ch e x W R I NR) as (s1 & ch1 & ED & W1 & TK). destruct (its_wf _ _ _ _ W I) as (_ & _ & _ & F). destruct (first_in _ _ _ _ F) as (IN & _).
    pose proof W as (_ & WT & _). destruct (wt_child _ _ WT _ _ IN) as (nx & _ & HX & _ & _ & PX & _).
    assert (AE : ~ anc (s_heap s) x e).
    { apply (not_both s ch e x W); [exists ne; auto|exists nx; auto|eapply anc_step; [exact HX|exact PX|constructor]|].
      intros ->. exact (anc_proper_neq _ _ _ _ _ (wt_rooted _ _ WT e (ex_intro _ ne He)) HX PX (anc_refl _ _) eq_refl). }
    destruct (tk_stays _ _ _ TK e ne He AE) as (ne1 & He1 & X1 & _ & _ & _ & _ & _ & X7); [congruence|].
    destruct (tk_stays _ _ _ TK c nc Hc AC) as (nc1 & Hc1 & Y1 & Y2 & _ & _ & _ & _ & Y7); [congruence|].
    destruct (append_ok s1 ch1 e c ne1 nc1 W1 He1) as (o & FF & Q); auto; try congruence. { pose proof (R _ _ He). unfold no_wrap. rewrite X7. lia. } { pose proof (R _ _ Hc). unfold no_wrap. rewrite Y7. lia. }
    exists s1, ch1, o. split; auto. split; auto. split. { destruct P as (m & M & Q1 & Q2). assert (m = nc) by congruence. subst m. exists nc1. split; auto. split; [congruence|]. rewrite Y2. exact Q2. }
    split; auto. rewrite ES. step ED. destruct o as [y|].
    - unfold bind. rewrite Q. reflexivity.
    - destruct Q as (s' & ch' & E & W' & PL). exists s', ch'. split; auto. step E. reflexivity.
  Qed.
End Parts.

(** ** By histories *)
Section Reach.
  Variable name : bytes.
  Hypothesis NM : name <> [] /\ name <> [42%N].
  Variables (j : nat) (s : st) (g : client) (e : id).
  Hypothesis RE : reach j s g.
  Hypothesis B : briefly j.

  Lemma reach_get : forall o, its name (s_heap s) e o -> exists s', table_part name e s = Ok o s' /\ answered s o s'.
  Proof. intros o I. destruct (reach_roomy _ _ _ RE B) as [[ch W] [R _]]. eapply get_part; eauto. Qed.
  Lemma reach_delete_none : its name (s_heap s) e None -> delete_part name e s = Ok tt s.
  Proof. intros I. destruct (reach_roomy _ _ _ RE B) as [[ch W] [R _]]. unfold delete_part. step (get_none name NM s ch e W R I). reflexivity. Qed.
  Lemma reach_delete : forall x, its name (s_heap s) e (Some x) -> ~ read_only (s_heap s) e -> exists s', delete_part name e s = Ok tt s' /\ taken s x s'.
  Proof. intros x I NR. destruct (reach_roomy _ _ _ RE B) as [[ch W] [R _]]. destruct (delete_ok name NM s ch e x W R I NR) as (s' & ch' & E & _ & T). exists s'. auto. Qed.
  Lemma reach_create_old : forall keeps x, its name (s_heap s) e (Some x) -> exists s', create_part keeps name e s = Ok x s' /\ answered s (Some x) s'.
  Proof. intros keeps x I. destruct (reach_get _ I) as (s' & E & A). exists s'. split; auto. unfold create_part. step E. reflexivity. Qed.
  Lemma reach_create : forall keeps, its name (s_heap s) e None -> ~ read_only (s_heap s) e ->
    exists x s', create_part keeps name e s = Ok x s' /\ added name s e x None s' /\ its name (s_heap s') e (Some x).
  Proof. intros keeps I NR. destruct (reach_roomy _ _ _ RE B) as [[ch W] [R _]]. eapply create_ok; eauto. Qed.
  Lemma reach_set_none : forall want, type_of (s_heap s) e = Some ELEMENT -> set_part want name e None s = Exc HIERARCHY_REQUEST_ERR s.
  Proof. intros want T. destruct (reach_roomy _ _ _ RE B) as [[ch W] [R _]]. eapply set_none; eauto. Qed.

  Variable want : bytes.
  Hypothesis WN : want <> [] /\ want <> [42%N].
  Lemma reach_set_wrong : forall c, type_of (s_heap s) e = Some ELEMENT -> type_of (s_heap s) c = Some ELEMENT -> ~ part want (s_heap s) c -> set_part want name e (Some c) s = Exc HIERARCHY_REQUEST_ERR s.
  Proof. intros c T TC P. destruct (reach_roomy _ _ _ RE B) as [[ch W] [R _]]. destruct WN as [N1 N2]. destruct (set_start name want s ch e c N1 N2 W T TC) as [Q _]. auto. Qed.

  Lemma holds_node : forall i, holds g i -> exists n, s_heap s i = Some n /\ (n_ref n > 0)%N.
  Proof.
    intros i H. destruct (reach_roomy _ _ _ RE B) as [_ [_ AG]]. unfold holds in H. destruct (s_heap s i) as [n|] eqn:E; [exists n; split; auto; rewrite (ag_ref _ _ _ AG _ _ E); exact H|].
    pose proof (ag_dead _ _ _ AG _ E). lia.
  Qed.

  Lemma reach_set_new : forall c, its name (s_heap s) e None -> part want (s_heap s) c -> holds g e -> holds g c ->
    exists o, first_failure (insert_checks (s_heap s) e c None) o /\
      match o with
      | Some y => set_part want name e (Some c) s = Exc y s
      | None => exists s', set_part want name e (Some c) s = Ok tt s' /\ put_last s e c s'
      end.
  Proof.
    intros c I P HE HC. destruct (reach_roomy _ _ _ RE B) as [[ch W] [R _]]. destruct WN as [N1 N2]. destruct (set_new name NM want s ch e c N1 N2 W R I P (holds_node _ HE) (holds_node _ HC)) as (o & FF & Q).
    exists o. split; auto. destruct o as [y|]; auto. destruct Q as (s' & ch' & E & _ & PL). exists s'. auto.
  Qed.
  Lemma reach_set_old : forall x c, its name (s_heap s) e (Some x) -> ~ read_only (s_heap s) e -> part want (s_heap s) c -> ~ anc (s_heap s) x c -> holds g e -> holds g c ->
    exists s1 o, taken s x s1 /\ first_failure (insert_checks (s_heap s1) e c None) o /\
      match o with
      | Some y => set_part want name e (Some c) s = Exc y s1
      | None => exists s', set_part want name e (Some c) s = Ok tt s' /\ put_last s1 e c s'
      end.
  Proof.
    intros x c I NR P AC HE HC. destruct (reach_roomy _ _ _ RE B) as [[ch W] [R _]]. destruct WN as [N1 N2].
    destruct (set_old name NM want s ch e x c N1 N2 W R I NR P AC (holds_node _ HE) (holds_node _ HC)) as (s1 & ch1 & o & TK & W1 & _ & FF & Q).
    exists s1, o. split; auto. split; auto. destruct o as [y|]; auto. destruct Q as (s' & ch' & E & _ & PL). exists s'. auto.
  Qed.
End Reach.

(** Setting a part of the right name and asking for it. *)
Section SetGet.
  Variable name : bytes.
  Hypothesis NM : name <> [] /\ name <> [42%N].
  Variables (j : nat) (s : st) (g : client) (e : id).
  Hypothesis RE : reach j s g.
  Hypothesis B : briefly j.

  Lemma set_get_new : forall c s', its name (s_heap s) e None -> part name (s_heap s) c -> holds g e -> holds g c -> set_part name name e (Some c) s = Ok tt s' ->
    its name (s_heap s') e (Some c) /\ exists n n', s_heap s c = Some n /\ s_heap s' c = Some n' /\ n_ref n' = (n_ref n + 1)%N.
  Proof.
    intros c s' I P HE HC E. destruct (reach_set_new name NM j s g e RE B name NM c I P HE HC) as (o & _ & Q). destruct o as [y|]; [congruence|]. destruct Q as (s2 & E2 & PL).
    assert (s2 = s') by congruence. subst s2. split.
    - pose proof I as (T & l & C & F). destruct (reach_roomy _ _ _ RE B) as [[ch W] _]. pose proof W as (_ & WT & _).
      assert (EL : l = ch e). { apply (wfT_children _ _ WT); auto. unfold type_of in T. destruct (s_heap s e) as [ne|] eqn:He; [exists ne; auto|discriminate]. }
      eapply put_its; eauto.
      + intros y Y. subst l. destruct (wt_child _ _ WT _ _ Y) as (n & _ & HN & _). exists n; auto.
      + intros y Y PY. exfalso. exact (first_none _ _ _ F y Y PY).
    - destruct PL as (_ & LV & SC). destruct P as (n & H & _). destruct (proj1 (LV c)) as (n' & H'); [exists n; auto|]. exists n, n'. split; auto. split; auto.
      destruct (SC c n n' H H') as (_&_&_&_&_&_&_&_&_&Q). rewrite Nat.eqb_refl in Q. exact Q.
  Qed.

  Lemma set_get_old : forall x c s', its name (s_heap s) e (Some x) -> ~ read_only (s_heap s) e -> part name (s_heap s) c -> ~ anc (s_heap s) x c -> holds g e -> holds g c ->
    (forall l y, children (s_heap s) e l -> In y l -> part name (s_heap s) y -> y = x \/ y = c) ->
    set_part name name e (Some c) s = Ok tt s' -> its name (s_heap s') e (Some c).
  Proof.
    intros x c s' I NR P AC HE HC ONE E. destruct (reach_roomy _ _ _ RE B) as [[ch W] [R _]]. destruct NM as [N1 N2].
    destruct (set_old name NM name s ch e x c N1 N2 W R I NR P AC (holds_node _ _ _ RE B _ HE) (holds_node _ _ _ RE B _ HC)) as (s1 & ch1 & o & TK & W1 & P1 & _ & Q).
    destruct o as [y|]; [congruence|]. destruct Q as (s2 & ch' & E2 & _ & PL). assert (s2 = s') by congruence. subst s2.
    destruct (its_wf _ _ _ _ _ W I) as (ne & He & TE & F). destruct (first_in _ _ _ _ F) as (IN & _). pose proof W as (_ & WT & _). pose proof W1 as (_ & WT1 & _).
    destruct (wt_child _ _ WT _ _ IN) as (nx & _ & HX & _ & _ & PX & _). assert (LE : live (s_heap s) e) by (exists ne; auto).
    assert (AE : ~ anc (s_heap s) x e).
    { apply (not_both s ch e x W); [auto|exists nx; auto|eapply anc_step; [exact HX|exact PX|constructor]|].
      intros ->. exact (anc_proper_neq _ _ _ _ _ (wt_rooted _ _ WT e LE) HX PX (anc_refl _ _) eq_refl). }
    destruct (tk_stays _ _ _ TK e ne He AE) as (ne1 & He1 & X1 & _); [congruence|]. assert (LE1 : live (s_heap s1) e) by (exists ne1; auto).
    pose proof (tk_lists _ _ _ TK e (ch e) LE1 (ch_children _ _ WT e LE)) as C1. pose proof (proj1 (wfT_children _ _ WT1 e _ LE1) C1) as EC.
    apply (put_its name s1 s' e c (without x (ch e))); auto.
    - unfold type_of. rewrite He1. cbn. congruence.
    - intros y Y. rewrite EC in Y. destruct (wt_child _ _ WT1 _ _ Y) as (n & _ & HN & _). exists n; auto.
    - intros y Y (n1 & H1 & T1). apply in_without in Y as [Y NX]. destruct (ONE (ch e) y (ch_children _ _ WT e LE) Y) as [Q|Q]; [|contradiction|exact Q].
      destruct (wt_child _ _ WT _ _ Y) as (n & _ & HN & _ & _ & PN & _). exists n. split; auto.
      destruct (tk_stays _ _ _ TK y n HN (beside s ch e x y W LE IN Y NX)) as (n' & HN' & Q1 & Q2 & _).
      + intros TD. exfalso. destruct W as (_ & _ & WO & _). destruct (wo_doc _ _ WO _ _ HN TD) as (_ & Z & _). congruence.
      + assert (n' = n1) by congruence. subst n'. unfold has_tag in *. rewrite Q1, Q2 in T1. exact T1.
  Qed.
End SetGet.

(** The two names of set_t_head. *)
Lemma head_is_no_caption : forall h c, part s_THEAD h c -> ~ part s_CAPTION h c.
Proof.
  intros h c (n & H & _ & [Q|(b & E & F)]) (n' & H' & _ & [Q'|(b' & E' & F')]); try discriminate. assert (n' = n) by congruence. subst. assert (b' = b) by congruence. subst. rewrite F in F'. vm_compute in F'. discriminate.
Qed.
Lemma part_names : (s_CAPTION <> [] /\ s_CAPTION <> [42%N]) /\ (s_THEAD <> [] /\ s_THEAD <> [42%N]) /\ (s_TFOOT <> [] /\ s_TFOOT <> [42%N]).
Proof. repeat split; discriminate. Qed.
Lemma part_live : forall (name : bytes) h c, part name h c -> type_of h c = Some ELEMENT.
Proof. intros name h c (n & H & T & _). unfold type_of. rewrite H. cbn. congruence. Qed.
(** What set_t_head does with heads and captions. *)
Lemma head_refused : forall j s g e c, reach j s g -> briefly j -> type_of (s_heap s) e = Some ELEMENT -> part s_THEAD (s_heap s) c -> set_head e (Some c) s = Exc HIERARCHY_REQUEST_ERR s.
Proof.
  intros j s g e c RE B T P. destruct part_names as (N1 & N2 & _). apply (reach_set_wrong s_THEAD j s g e RE B s_CAPTION N1 c T (part_live _ _ _ P)). apply head_is_no_caption. exact P.
Qed.
Lemma caption_accepted : forall j s g e c s', reach j s g -> briefly j -> its s_THEAD (s_heap s) e None -> part s_CAPTION (s_heap s) c -> holds g e -> holds g c ->
  set_head e (Some c) s = Ok tt s' -> its s_THEAD (s_heap s') e None /\ parent_of (s_heap s') c = Some e.
Proof.
  intros j s g e c s' RE B I P HE HC E. destruct part_names as (N1 & N2 & _). destruct (reach_roomy _ _ _ RE B) as [[ch W] [R _]]. destruct N1 as [A1 A2].
  destruct (set_new s_THEAD N2 s_CAPTION s ch e c A1 A2 W R I P (holds_node _ _ _ RE B _ HE) (holds_node _ _ _ RE B _ HC)) as (o & _ & Q). destruct o as [y|]; [unfold set_head in E; congruence|].
  destruct Q as (s2 & ch' & E2 & W2 & PL). assert (s2 = s') by (unfold set_head in E; congruence). subst s2. destruct PL as (LS & LV & SC). pose proof W as (_ & WT & _). pose proof W2 as (_ & WT2 & _).
  destruct (its_wf _ _ _ _ _ W I) as (ne & He & TE & F). assert (LE : live (s_heap s) e) by (exists ne; auto). pose proof (LS e (ch e) (ch_children _ _ WT e LE)) as C2. rewrite Nat.eqb_refl in C2.
  destruct (proj1 (LV e) LE) as (ne2 & He2). destruct (SC e ne ne2 He He2) as (T2 & _). assert (LE2 : live (s_heap s') e) by (exists ne2; auto).
  assert (PP : forall y, live (s_heap s) y -> part s_THEAD (s_heap s') y -> part s_THEAD (s_heap s) y).
  { intros y (n & H) (n' & H' & Q). destruct (SC y n n' H H') as (X & _ & Y & _). exists n. split; auto. unfold has_tag in *. rewrite X, Y in Q. exact Q. }
  split.
  - split. { unfold type_of. rewrite He2. cbn. congruence. } exists (without c (ch e) ++ [c]). split; auto. apply no_part. intros y Y PY. apply in_app_or in Y as [Y|[<-|[]]].
    + apply in_without in Y as [Y _]. destruct (wt_child _ _ WT _ _ Y) as (n & _ & HN & _). apply (first_none _ _ _ F y Y). apply PP; auto. exists n; auto.
    + destruct P as (n & H & T). assert (LC : live (s_heap s) c) by (exists n; auto). apply (head_is_no_caption (s_heap s) c); [apply PP; auto|]. exists n; auto.
  - pose proof (proj1 (wfT_children _ _ WT2 e _ LE2) C2) as EC. assert (IC : In c (ch' e)) by (rewrite <- EC; apply in_or_app; right; left; auto).
    destruct (wt_child _ _ WT2 _ _ IC) as (n & _ & HN & _ & _ & PN & _). unfold parent_of. rewrite HN. exact PN.
Qed.

(** ** What the client is left with *)
Lemma set_count : forall (name : bytes), name <> [] /\ name <> [42%N] -> forall j s g e c s', reach j s g -> briefly j -> its name (s_heap s) e None -> part name (s_heap s) c -> holds g e -> holds g c ->
  set_part name name e (Some c) s = Ok tt s' -> exists n', s_heap s' c = Some n' /\ n_ref n' = (owns g c + 1)%N.
Proof.
  intros name NM j s g e c s' RE B I P HE HC E. destruct (set_get_new name NM j s g e RE B c s' I P HE HC E) as (_ & n & n' & H & H' & R). exists n'. split; auto.
  destruct (reach_roomy _ _ _ RE B) as [_ [_ AG]]. rewrite <- (ag_ref _ _ _ AG _ _ H). exact R.
Qed.

(** ** As stated *)
Lemma gets : forall j s g e o, reach j s g -> briefly j ->
  (its s_CAPTION (s_heap s) e o -> exists s', get_caption e s = Ok o s' /\ answered s o s') /\
  (its s_THEAD (s_heap s) e o -> exists s', get_head e s = Ok o s' /\ answered s o s') /\
  (its s_TFOOT (s_heap s) e o -> exists s', get_foot e s = Ok o s' /\ answered s o s').
Proof. intros j s g e o RE B. destruct part_names as (N1 & N2 & N3). split; [|split]; intros I; [apply (reach_get s_CAPTION N1 j s g e RE B)|apply (reach_get s_THEAD N2 j s g e RE B)|apply (reach_get s_TFOOT N3 j s g e RE B)]; exact I. Qed.
Lemma the_deletes : forall delete (name : bytes), In (delete, name) [(delete_caption, s_CAPTION); (delete_head, s_THEAD); (delete_foot, s_TFOOT)] -> delete = delete_part name /\ name <> [] /\ name <> [42%N].
Proof. intros delete name [Q|[Q|[Q|[]]]]; injection Q as <- <-; (split; [reflexivity|split; discriminate]). Qed.
Lemma the_creates : forall create (name : bytes), In (create, name) [(create_caption, s_CAPTION); (create_head, s_THEAD); (create_foot, s_TFOOT)] ->
  (exists keeps, create = create_part keeps name) /\ name <> [] /\ name <> [42%N].
Proof. intros create name [Q|[Q|[Q|[]]]]; injection Q as <- <-; (split; [|split; discriminate]); [exists false|exists true|exists false]; reflexivity. Qed.
Lemma the_sets : forall set (name : bytes), In (set, name) [(set_caption, s_CAPTION); (set_foot, s_TFOOT)] -> set = set_part name name /\ name <> [] /\ name <> [42%N].
Proof. intros set name [Q|[Q|[]]]; injection Q as <- <-; (split; [reflexivity|split; discriminate]). Qed.
Lemma deletes : forall delete (name : bytes), In (delete, name) [(delete_caption, s_CAPTION); (delete_head, s_THEAD); (delete_foot, s_TFOOT)] -> forall j s g e, reach j s g -> briefly j ->
  (its name (s_heap s) e None -> delete e s = Ok tt s) /\
  (forall x, its name (s_heap s) e (Some x) -> ~ read_only (s_heap s) e -> exists s', delete e s = Ok tt s' /\ taken s x s').
Proof. intros delete name N j s g e RE B. destruct (the_deletes _ _ N) as [-> NM]. split; [apply (reach_delete_none name NM j s g e RE B)|apply (reach_delete name NM j s g e RE B)]. Qed.
Lemma creates : forall create (name : bytes), In (create, name) [(create_caption, s_CAPTION); (create_head, s_THEAD); (create_foot, s_TFOOT)] -> forall j s g e, reach j s g -> briefly j ->
  (forall x, its name (s_heap s) e (Some x) -> exists s', create e s = Ok x s' /\ answered s (Some x) s') /\
  (its name (s_heap s) e None -> ~ read_only (s_heap s) e -> exists x s', create e s = Ok x s' /\ added name s e x None s' /\ its name (s_heap s') e (Some x)).
Proof. intros create name N j s g e RE B. destruct (the_creates _ _ N) as [[keeps ->] NM]. split; [apply (reach_create_old name NM j s g e RE B)|apply (reach_create name NM j s g e RE B)]. Qed.
Lemma sets : forall set (name : bytes), In (set, name) [(set_caption, s_CAPTION); (set_foot, s_TFOOT)] -> forall j s g e, reach j s g -> briefly j -> type_of (s_heap s) e = Some ELEMENT ->
  set e None s = Exc HIERARCHY_REQUEST_ERR s /\
  (forall c, type_of (s_heap s) c = Some ELEMENT -> ~ part name (s_heap s) c -> set e (Some c) s = Exc HIERARCHY_REQUEST_ERR s) /\
  (forall c, its name (s_heap s) e None -> part name (s_heap s) c -> holds g e -> holds g c ->
     exists o, first_failure (insert_checks (s_heap s) e c None) o /\
     match o with
     | Some y => set e (Some c) s = Exc y s
     | None => exists s', set e (Some c) s = Ok tt s' /\ put_last s e c s' /\ its name (s_heap s') e (Some c)
     end).
Proof.
  intros set name N0 j s g e RE B T. destruct (the_sets _ _ N0) as [-> N]. split; [apply (reach_set_none name j s g e RE B name T)|]. split; [intros c TC P; apply (reach_set_wrong name j s g e RE B name N c T TC P)|].
  intros c I P HE HC. destruct (reach_set_new name N j s g e RE B name N c I P HE HC) as (o & FF & Q). exists o. split; auto. destruct o as [y|]; auto. destruct Q as (s' & E & PL).
  exists s'. split; auto. split; auto. apply (set_get_new name N j s g e RE B c s' I P HE HC E).
Qed.
Lemma replaces : forall set (name : bytes), In (set, name) [(set_caption, s_CAPTION); (set_foot, s_TFOOT)] -> forall j s g e x c, reach j s g -> briefly j ->
  its name (s_heap s) e (Some x) -> ~ read_only (s_heap s) e -> part name (s_heap s) c -> ~ anc (s_heap s) x c -> holds g e -> holds g c ->
  exists s1 o, taken s x s1 /\ first_failure (insert_checks (s_heap s1) e c None) o /\
  match o with
  | Some y => set e (Some c) s = Exc y s1
  | None => exists s', set e (Some c) s = Ok tt s' /\ put_last s1 e c s' /\
      ((forall l y, children (s_heap s) e l -> In y l -> part name (s_heap s) y -> y = x \/ y = c) -> its name (s_heap s') e (Some c))
  end.
Proof.
  intros set name N0 j s g e x c RE B I NR P A HE HC. destruct (the_sets _ _ N0) as [-> N]. destruct (reach_set_old name N j s g e RE B name N x c I NR P A HE HC) as (s1 & o & TK & FF & Q). exists s1, o. split; auto. split; auto.
  destruct o as [y|]; auto. destruct Q as (s' & E & PL). exists s'. split; auto. split; auto. intros ONE. apply (set_get_old name N j s g e RE B x c s' I NR P A HE HC ONE E).
Qed.
Lemma leaks : forall set (name : bytes), In (set, name) [(set_caption, s_CAPTION); (set_foot, s_TFOOT)] -> forall j s g e c s', reach j s g -> briefly j ->
  its name (s_heap s) e None -> part name (s_heap s) c -> holds g e -> holds g c -> set e (Some c) s = Ok tt s' ->
  exists n', s_heap s' c = Some n' /\ n_ref n' = (owns g c + 1)%N.
Proof. intros set name N. destruct (the_sets _ _ N) as [-> NM]. exact (set_count name NM). Qed.
Lemma heads : forall j s g e, reach j s g -> briefly j ->
  (forall c, type_of (s_heap s) e = Some ELEMENT -> part s_THEAD (s_heap s) c -> set_head e (Some c) s = Exc HIERARCHY_REQUEST_ERR s) /\
  (forall c s', its s_THEAD (s_heap s) e None -> part s_CAPTION (s_heap s) c -> holds g e -> holds g c -> set_head e (Some c) s = Ok tt s' ->
     its s_THEAD (s_heap s') e None /\ parent_of (s_heap s') c = Some e).
Proof. intros j s g e RE B. split; intros c; intros; [eapply head_refused; eauto|eapply caption_accepted; eauto]. Qed.
