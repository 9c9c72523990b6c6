(** HTML documents released in every history. *)
From Coq Require Import List Arith NArith Bool Lia.
From Verif Require Import Base HeapModel HeapSpec HeapInv HeapExec HeapFrame HeapOps HeapUnref HistModel HistProofs FinModel FinSpec FinProofs.
Import ListNotations.
Local Open Scope dom_scope.

Lemma nodes_same : forall i s x s' x', html_unref i (s, x) = Ok tt (s', x') -> node_unref i s = Ok tt s'.
Proof. intros i s x s' x' E. pose proof (alike_unref i s x) as K. rewrite E in K. apply K. Qed.
Lemma nodes_quiet : forall i s x s', quiet x -> node_unref i s = Ok tt s' -> exists x', html_unref i (s, x) = Ok tt (s', x') /\ quiet x'.
Proof.
  intros i s x s' Q E. pose proof (alike_unref i s x) as K. rewrite E in K. destruct (html_unref i (s, x)) as [[] [t y]|e [t y]|b].
  - destruct K as (K & O). injection K as <-. exists y. split; auto. eapply onward_quiet; eauto.
  - destruct K. discriminate.
  - destruct K as [K|(_ & K)]; [discriminate|contradiction].
Qed.
Lemma nodes_or_freed : forall i s x s', node_unref i s = Ok tt s' -> (exists x', html_unref i (s, x) = Ok tt (s', x')) \/ html_unref i (s, x) = Bad UseAfterFree.
Proof.
  intros i s x s' E. pose proof (alike_unref i s x) as K. rewrite E in K. destruct (html_unref i (s, x)) as [[] [t y]|e [t y]|b].
  - destruct K as (K & O). injection K as <-. eauto.
  - destruct K. discriminate.
  - destruct K as [K|(-> & _)]; [discriminate|auto].
Qed.

(** ** What is left to a node that outlives its document *)
Lemma held_names : forall j s g, reach j s g -> short (S j) -> forall d e n x, type_of (s_heap s) d = Some DOCUMENT -> owns g d = 1%N -> s_heap s e = Some n -> n_type n = ELEMENT ->
  n_owner n = Some d -> holds g e -> quiet x -> exists s' x', html_unref d (s, x) = Ok tt (s', x') /\ live (s_heap s') e /\ known_name e (s', x') = Bad NullDeref.
Proof.
  intros j s g R SH d e n x T OW H TE OE HE Q. assert (SJ : short j) by (unfold short in *; lia). destruct (reach_good _ _ _ R SJ) as ((ch & W) & AG).
  unfold type_of in T. destruct (s_heap s d) as [nd|] eqn:HD; [|discriminate]. cbn [option_map] in T. injection T as T.
  pose proof (ag_ref _ _ _ AG _ _ HD) as RD. rewrite OW in RD. assert (NE : e <> d) by (intros ->; congruence).
  destruct (unref_spec s ch d nd W HD) as (h' & ch' & E & W' & Z); [lia|rewrite RD; reflexivity|].
  destruct W as (_ & _ & WO & _). destruct (wo_doc _ _ WO _ _ HD T) as (_ & P & _). rewrite RD, P in Z. cbn in Z.
  destruct (nodes_quiet d s x _ Q E) as (x' & E' & _).
  assert (R' : reach (S j) (withh s h') (lose g d)).
  { change (lose g d) with (account s (OUnref d) OutNothing g). apply (reach_call j s g (OUnref d)); auto.
    - unfold legal, holds. rewrite OW. lia.
    - cbn [exec]. unfold bind. rewrite E. reflexivity. }
  destruct (reach_good _ _ _ R' SH) as (_ & AG'). assert (LV : live h' e).
  { unfold live. destruct (h' e) as [m|] eqn:X; [eauto|]. pose proof (ag_dead _ _ _ AG' e X) as Y. unfold holds in HE. unfold lose in Y. cbn [owns] in Y.
    destruct (Nat.eqb_spec e d); [contradiction|lia]. }
  destruct LV as (m & M). assert (H1 : hmod (s_heap s) d ref_down e = Some n). { unfold hmod. destruct (Nat.eqb_spec e d); [contradiction|exact H]. }
  assert (K : n_type m = ELEMENT /\ n_owner m = Some d).
  { assert (C : {n_type m = ELEMENT /\ n_owner m = Some d} + {~ (n_type m = ELEMENT /\ n_owner m = Some d)}).
    { destruct (n_type m); try (right; intros (A & _); discriminate). destruct (n_owner m) as [o|]; [|right; intros (_ & A); discriminate].
      destruct (Nat.eq_dec o d) as [->|N]; [left; auto|right; intros (_ & A); congruence]. }
    destruct C as [C|C]; [exact C|exfalso]. assert (ND : n_type n <> DOCUMENT) by congruence.
    assert (A1 : ~ dies (hmod (s_heap s) d ref_down) d e). { intros A. pose proof (re_gone _ _ _ _ _ Z _ _ A H1 ND). congruence. }
    assert (A2 : ~ orphaned (hmod (s_heap s) d ref_down) d e).
    { intros A. pose proof (re_orph _ _ _ _ _ Z _ _ A H1) as B. apply C. rewrite M in B. injection B as ->. cbn. auto. }
    pose proof (re_keep _ _ _ _ _ Z _ _ A1 A2 H1 ND) as B. apply C. rewrite M in B. injection B as ->. auto. }
  destruct K as (K1 & K2). exists (withh s h'), x'. split; [exact E'|]. split; [exists m; exact M|].
  destruct W' as (_ & _ & WO' & _). destruct (wo_owner _ _ WO' e m d M K2) as [(nd' & ND' & _)|((F & _) & _)]; [|congruence].
  destruct (last_unref s x d nd (withh s h') x' HD T P RD E') as (TB & _).
  unfold known_name, bind. unfold lift at 1. unfold load. cbn [fst snd withh s_heap] in *. rewrite M. rewrite K2. unfold lift. cbn [fst snd deref ret]. cbn [withh s_heap]. rewrite ND'.
  cbn [snd]. rewrite TB. reflexivity.
Qed.

(** ** Strings released twice *)
Lemma released_twice : forall j s g, reach j s g -> short j -> forall d x c s1 x1, type_of (s_heap s) d = Some DOCUMENT -> owns g d = 1%N ->
  In c (x_strings x d) -> x_count x c = 1%N -> html_unref d (s, x) = Ok tt (s1, x1) ->
  forall s2 x2 i s3, onward x1 x2 -> type_of (s_heap s2) d = Some DOCUMENT -> node_unref i s2 = Ok tt s3 -> ~ live (s_heap s3) d -> html_unref i (s2, x2) = Bad UseAfterFree.
Proof.
  intros j s g R SH d x c s1 x1 T OW I C E s2 x2 i s3 O T2 E3 NL. destruct (reach_good _ _ _ R SH) as ((ch & W) & AG).
  unfold type_of in T. destruct (s_heap s d) as [nd|] eqn:HD; [|discriminate]. cbn [option_map] in T. injection T as T.
  pose proof (ag_ref _ _ _ AG _ _ HD) as RD. rewrite OW in RD. destruct W as (_ & _ & WO & _). destruct (wo_doc _ _ WO _ _ HD T) as (_ & P & _).
  destruct (last_unref s x d nd s1 x1 HD T P RD E) as (_ & CN). specialize (CN c I).
  assert (D : doomed x2 d). { pose proof (alike_onward _ _ _ _ _ _ _ _ (alike_unref d) E) as O1. apply (onward_doomed x1); auto. exists c. destruct O1 as (_ & -> & _). split; auto. lia. }
  destruct (nodes_or_freed i s2 x2 s3 E3) as [(x3 & E4)|E4]; [exfalso|exact E4]. destruct (keeps_unref d i _ _ _ _ _ D T2 E4) as (_ & T3).
  apply NL. unfold live, type_of in *. destruct (s_heap s3 d) as [m|]; [eauto|discriminate].
Qed.

(** ** A document released alone *)
Lemma strs_exact : forall l s x, NoDup l -> (forall c, In c l -> x_count x c <> 0%N) -> exists x', strs_unref l (s, x) = Ok tt (s, x') /\ x_tables x' = x_tables x /\
  forall c, (In c l -> x_count x' c = (x_count x c - 1)%N) /\ (~ In c l -> x_count x' c = x_count x c).
Proof.
  induction l as [|a l IH]; intros s x ND C; cbn [strs_unref]. { exists x. split; [reflexivity|]. split; [reflexivity|]. intros c. split; [intros []|auto]. }
  inversion ND as [|? ? NI ND']; subst. unfold bind at 1, str_unref. cbn [snd fst]. destruct (N.eqb_spec (x_count x a) 0) as [Z|Z]; [exfalso; apply (C a); [left; auto|auto]|].
  match goal with |- context [strs_unref l (s, ?y)] => set (y0 := y); destruct (IH s y0 ND') as (x' & E1 & E2 & E3) end.
  { intros c I. cbn [y0 x_count]. destruct (Nat.eqb_spec c a) as [->|]; [contradiction|]. apply C. right; auto. }
  exists x'. split; [exact E1|]. split; [exact E2|]. intros c. destruct (E3 c) as (A & B). unfold y0 in A, B. cbn [x_count] in A, B. split.
  - intros [<-|I].
    + rewrite (B NI), Nat.eqb_refl. reflexivity.
    + rewrite (A I). destruct (Nat.eqb_spec c a) as [Q|]; [exfalso; rewrite Q in I; contradiction|reflexivity].
  - intros N. assert (NL : ~ In c l) by (intros I; apply N; right; auto). rewrite (B NL). destruct (Nat.eqb_spec c a) as [Q|]; [exfalso; apply N; left; auto|reflexivity].
Qed.
Lemma alone : forall j s g, reach j s g -> short j -> forall d n x, s_heap s d = Some n -> n_type n = DOCUMENT -> owns g d = 1%N -> children (s_heap s) d [] -> n_pend n = [] ->
  NoDup (x_strings x d) -> (forall c, In c (x_strings x d) -> x_count x c <> 0%N) ->
  exists s' x', html_unref d (s, x) = Ok tt (s', x') /\ ~ live (s_heap s') d /\ x_tables x' d = false /\
    forall c, (In c (x_strings x d) -> x_count x' c = (x_count x c - 1)%N) /\ (~ In c (x_strings x d) -> x_count x' c = x_count x c).
Proof.
  intros j s g R SH d n x H T OW CH PE ND C. destruct (reach_good _ _ _ R SH) as ((ch & W) & AG). pose proof (ag_ref _ _ _ AG _ _ H) as RD. rewrite OW in RD.
  destruct W as (_ & _ & WO & _). destruct (wo_doc _ _ WO _ _ H T) as (_ & P & PN & _).
  assert (F1 : n_first n = None). { destruct CH as (m & M & F). assert (m = n) by congruence; subst m. inversion F; auto. }
  set (s1 := mkSt (hmod (s_heap s) d (fun n => set_ref (u32 (n_ref n + (two32 - 1))) n)) (s_nxt s) (s_log s)).
  assert (U : forall y, lift (upd d (fun n => set_ref (u32 (n_ref n + (two32 - 1))) n)) (s, y) = Ok tt (s1, y)). { intros y. unfold lift, upd. cbn [fst snd]. rewrite H. reflexivity. }
  assert (H1 : s_heap s1 d = Some (set_ref 0%N n)). { cbn [s1 s_heap]. unfold hmod. rewrite Nat.eqb_refl, H. cbn [option_map]. rewrite RD. reflexivity. }
  assert (L : forall y, lift (load d) (s1, y) = Ok (set_ref 0%N n) (s1, y)) by (intros y; unfold lift; cbn [fst snd]; unfold load; rewrite H1; reflexivity).
  set (s2 := mkSt (hmod (s_heap s1) d clear_node) (s_nxt s1) (s_log s1)).
  assert (U2 : forall y, lift (upd d clear_node) (s1, y) = Ok tt (s2, y)). { intros y. unfold lift, upd. cbn [fst snd]. rewrite H1. reflexivity. }
  assert (H2 : s_heap s2 d = Some (clear_node (set_ref 0%N n))). { cbn [s2 s_heap]. unfold hmod at 1. rewrite Nat.eqb_refl, H1. reflexivity. }
  assert (L2 : forall y, lift (load d) (s2, y) = Ok (clear_node (set_ref 0%N n)) (s2, y)) by (intros y; unfold lift; cbn [fst snd]; unfold load; rewrite H2; reflexivity).
  set (s3 := mkSt (hupd (s_heap s2) d None) (s_nxt s2) (s_log s2)).
  assert (FR : forall y, lift (free d) (s2, y) = Ok tt (s3, y)). { intros y. unfold lift, free. cbn [fst snd]. rewrite H2. reflexivity. }
  destruct (strs_exact (x_strings x d) s1 x ND C) as (x1 & S1 & S2 & S3).
  set (x2 := mkExt (fun j => if Nat.eqb j d then false else x_tables x1 j) (x_strings x1) (x_count x1)).
  assert (FN : html_finalise d (s1, x) = Ok tt (s1, x2)). { unfold html_finalise, bind. cbn [snd]. rewrite S1. reflexivity. }
  exists s3, x2. split.
  - unfold html_unref. unfold bind at 1. rewrite U. unfold bind at 1. rewrite L. change (N.eqb (n_ref (set_ref 0%N n)) 0) with true. cbn [hwhen]. unfold htry_destroy. cbn [fst].
    unfold htry_destroy_with. unfold bind at 1. rewrite L. change (n_parent (set_ref 0%N n)) with (n_parent n). rewrite P.
    change (N.eqb (n_ref (set_ref 0%N n)) 0) with true. cbv iota.
    assert (F : exists f, fuel_of s1 = S f) by (unfold fuel_of; exists (2 * s_nxt s1 + 7); lia). destruct F as (f & F). rewrite F. cbn [hdestroy].
    unfold bind at 1. rewrite L. change (n_type (set_ref 0%N n)) with (n_type n). rewrite T. unfold bind at 1. rewrite FN.
    assert (G : hfinalise_with f (hdestroy f) d (s1, x2) = Ok tt (s2, x2)).
    { unfold hfinalise_with. unfold bind at 1. rewrite L. change (n_first (set_ref 0%N n)) with (n_first n). rewrite F1. unfold bind at 1.
      replace (hfin_children f (hdestroy f) None (s1, x2)) with (@Ok hst unit tt (s1, x2)) by (destruct f; reflexivity).
      unfold bind at 1. rewrite U2. unfold bind at 1. rewrite L2. change (n_pending (clear_node (set_ref 0%N n))) with (n_pending n). rewrite PN. reflexivity. }
    unfold bind at 1. rewrite G. unfold bind at 1. rewrite L2. change (n_pend (clear_node (set_ref 0%N n))) with (n_pend n). rewrite PE. apply FR.
  - split. { intros (m & M). cbn [s3 s_heap] in M. unfold hupd in M. rewrite Nat.eqb_refl in M. discriminate. }
    split; [cbn [x2 x_tables]; rewrite Nat.eqb_refl; reflexivity|exact S3].
Qed.
