(** Adding options to a select element. *)
From Coq Require Import List Arith NArith ZArith Bool Lia.
From Verif Require Import Base HeapModel HeapSpec HeapInv HeapExec HeapFrame HeapOps HeapUnref HistModel HistProofs TreeSpec TreeProofs LookupSpec LookupProofs HtmlModel HtmlSpec.
Import ListNotations.
Local Open Scope dom_scope.

Lemma ref_down_same : forall h i, LookupProofs.same h (hmod h i ref_down).
Proof. intros h i j. unfold hmod. destruct (Nat.eqb j i); [|reflexivity]. destruct (h j) as [n|]; [|reflexivity]. cbn. unfold unreferenced, ref_down. destruct n; reflexivity. Qed.
Lemma reach_add : forall k s g, reach k s g -> short (S (S k)) -> forall e o before, legal s g (OInsert e o before) ->
  exists x, first_failure (insert_checks (s_heap s) e o before) x /\
  match x with
  | Some y => select_add e o before s = Exc y s
  | None => exists s' g', select_add e o before s = Ok tt s' /\ reach (S (S k)) s' g' /\ (forall i, owns g' i = owns g i) /\
      (forall lp lc j l, children (s_heap s) e lp -> children (s_heap s) o lc -> children (s_heap s) j l ->
         children (s_heap s') j (after_insert (s_heap s) e o before lp lc j l)) /\
      (forall j n, s_heap s j = Some n -> exists n', s_heap s' j = Some n' /\ n_ref n' = n_ref n /\ n_attrs n' = n_attrs n /\ n_value n' = n_value n)
  end.
Proof.
  intros k s g R SH e o before LG. assert (S1 : short (S k)) by (unfold short in *; lia).
  destruct (insert_full k s g R S1 e o before LG) as (x & FF & K). exists x. split; auto. destruct x as [y|].
  - unfold select_add, bind. rewrite K. reflexivity.
  - destruct K as (s1 & E1 & R1 & CH & (LV & SC) & _). set (g1 := account s (OInsert e o before) (OutNode (Some o)) g) in *.
    assert (OW : forall i, owns g1 i = if Nat.eqb i o then (owns g i + 1)%N else owns g i). { intros i. unfold g1. cbn [account]. unfold gain, spend_new. cbn [owns]. destruct (is_fragment s o); reflexivity. }
    destruct (reach_good _ _ _ R1 S1) as ((ch & W) & AG). destruct LG as (_ & (HO & _) & _). unfold holds in HO.
    assert (HV : exists n1, s_heap s1 o = Some n1). { destruct (s_heap s1 o) as [n1|] eqn:X; [eauto|]. pose proof (ag_dead _ _ _ AG _ X) as Y. rewrite OW, Nat.eqb_refl in Y. lia. }
    destruct HV as (n1 & H1). pose proof (ag_ref _ _ _ AG _ _ H1) as RF. rewrite OW, Nat.eqb_refl in RF. pose proof (ag_bound _ _ _ AG o) as BD. rewrite OW, Nat.eqb_refl in BD.
    destruct (unref_spec s1 ch o n1 W H1) as (h' & ch' & E2 & _ & Z); [lia|unfold short in *; unfold two32; lia|].
    assert (Q : (1 <? n_ref n1)%N = true) by (apply N.ltb_lt; lia). rewrite Q in Z. cbn [orb] in Z. destruct Z as (-> & _).
    pose (s2 := withh s1 (hmod (s_heap s1) o ref_down)). change (withh s1 (hmod (s_heap s1) o ref_down)) with s2 in E2. exists s2, (lose g1 o). split; [|split; [|split; [|split]]].
    + unfold select_add, bind. rewrite E1. exact E2.
    + change (lose g1 o) with (account s1 (OUnref o) OutNothing g1). apply (reach_call (S k) s1 g1 (OUnref o)); auto.
      * unfold legal, holds. rewrite OW, Nat.eqb_refl. lia.
      * cbn [exec]. unfold bind. rewrite E2. reflexivity.
    + intros i. unfold lose. cbn [owns]. rewrite OW. destruct (Nat.eqb i o); lia.
    + intros lp lc j l A B C. apply (same_children (s_heap s1)); [apply ref_down_same|]. apply (CH lp lc j l); auto.
    + intros j n H. destruct (proj1 (LV j)) as (m & M); [exists n; auto|]. destruct (SC j n m H M) as (_ & C2 & _ & C4 & _ & _ & _ & _ & _ & C10).
      exists (if Nat.eqb j o then ref_down m else m). cbn [s2 withh s_heap]. unfold hmod. rewrite M. destruct (Nat.eqb_spec j o) as [->|NE].
      * split; [reflexivity|]. assert (m = n1) by congruence; subst m. split; [|split; [exact C2|exact C4]]. rewrite (ref_down_val n1); [lia|lia|unfold short in *; unfold two32; lia].
      * auto.
Qed.
