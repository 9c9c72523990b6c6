(** Consequences for token lists, and concrete histories. *)
From Coq Require Import List Arith NArith Bool Lia ZifyBool ZifyNat ZifyN.
From Verif Require Import Base StringModel StringProofs AttrModel AttrMapSpec AttrTheorems TokenModel TokenSpec TokenProofs.
Import ListNotations.
Local Open Scope N_scope.

Lemma pieces_split : forall v w, pieces v w = class_split v w.
Proof. reflexivity. Qed.
Lemma tokens_words : forall v t, spaced v -> (In t (tokens (Some v)) <-> word t v).
Proof.
  intros v t S. unfold tokens, once. change (In t (gather [] (pieces v [])) <-> word t v). rewrite gather_in. cbn [In].
  rewrite pieces_split, split_words by (auto; reflexivity). cbn [app]. tauto.
Qed.
Lemma reached_ok : forall s w, treach s w -> value_ok (m_value w).
Proof. intros s w T. apply (co_ok _ _ (treach_coherent s w T)). Qed.
Lemma tokens_once : forall s w, treach s w -> NoDup (tokens (m_value w)).
Proof. intros s w T. apply tokens_good. eapply reached_ok; eauto. Qed.

Definition tans (r : res tst tout) : option tout := match r with Ok a _ => Some a | _ => None end.
Lemma ask : forall s w o, treach s w -> tlegal w o -> tans (texec o s) = Some (fst (tmeans o w)).
Proof. intros s w o T L. destruct (token_calls s w o T L) as (s' & E & _). rewrite E. auto. Qed.

Lemma add_law : forall s w i t, treach s w -> tlegal w (TAdd i t) ->
  exists s', texec (TAdd i t) s = Ok TDone s' /\ forall j, (j < length (m_wrote w))%nat ->
    (forall u, tans (texec (TContains j u) s') = if bytes_eqb u t then Some (TBool true) else tans (texec (TContains j u) s)) /\
    (tans (texec (TContains j t) s) = Some (TBool true) -> tans (texec (TValue j) s') = tans (texec (TValue j) s)) /\
    (tans (texec (TContains j t) s) = Some (TBool false) ->
       tans (texec (TValue j) s') = Some (TStr (Some (join (tokens (m_value w) ++ [t])))) /\
       tokens (Some (join (tokens (m_value w) ++ [t]))) = tokens (m_value w) ++ [t]).
Proof.
  intros s w i t T L. destruct (token_calls s w _ T L) as (s' & E & T'). exists s'. split; [exact E|]. intros j LJ. cbn [tmeans snd fst] in *. destruct L as (LI & AT & FJ & NE).
  rewrite (ask s w (TContains j t) T LJ). cbn [tmeans fst].
  assert (LJ' : (j < length (m_wrote (if mem t (tokens (m_value w)) then w else wrote w i (join (tokens (m_value w) ++ [t])))))%nat).
  { destruct (mem t (tokens (m_value w))); auto. cbn. rewrite replace_len. auto. }
  destruct (tokens_good _ (reached_ok s w T)) as [G ND].
  assert (TJ : mem t (tokens (m_value w)) = false -> tokens (Some (join (tokens (m_value w) ++ [t]))) = tokens (m_value w) ++ [t]).
  { intros M. destruct (add_good t _ (conj G ND) AT M) as [G' ND']. apply tokens_join; auto. }
  split; [|split].
  - intros u. rewrite (ask s' _ (TContains j u) T' LJ'), (ask s w (TContains j u) T LJ). cbn [tmeans fst]. destruct (mem t (tokens (m_value w))) eqn:M.
    + destruct (bytes_eqb u t) eqn:B; auto. apply beq in B. subst u. rewrite M. auto.
    + cbn [wrote m_value]. rewrite (TJ eq_refl). unfold mem at 1. rewrite existsb_app. cbn [existsb]. rewrite orb_false_r. fold (mem u (tokens (m_value w))).
      destruct (bytes_eqb u t); [rewrite orb_true_r|rewrite orb_false_r]; auto.
  - intros X. inversion X as [M]. rewrite M in *. rewrite (ask s' _ (TValue j) T' LJ'), (ask s w (TValue j) T LJ). auto.
  - intros X. inversion X as [M]. rewrite M in *. split; auto. rewrite (ask s' _ (TValue j) T' LJ'). auto.
Qed.
Lemma remove_law : forall s w i t, treach s w -> tlegal w (TRemove i t) ->
  exists s', texec (TRemove i t) s = Ok TDone s' /\ forall j, (j < length (m_wrote w))%nat ->
    (forall u, tans (texec (TContains j u) s') = if bytes_eqb u t then Some (TBool false) else tans (texec (TContains j u) s)) /\
    tans (texec (TValue j) s') = Some (TStr (Some (join (without t (tokens (m_value w)))))) /\
    tokens (Some (join (without t (tokens (m_value w))))) = without t (tokens (m_value w)).
Proof.
  intros s w i t T L. destruct (token_calls s w _ T L) as (s' & E & T'). exists s'. split; [exact E|]. intros j LJ. cbn [tmeans snd fst] in *.
  assert (LJ' : (j < length (m_wrote (wrote w i (join (without t (tokens (m_value w)))))))%nat) by (cbn; rewrite replace_len; auto).
  destruct (without_good t _ (tokens_good _ (reached_ok s w T))) as [G ND]. pose proof (tokens_join _ G ND) as TJ.
  split; [|split; auto].
  - intros u. rewrite (ask s' _ (TContains j u) T' LJ'), (ask s w (TContains j u) T LJ). cbn [tmeans fst wrote m_value]. rewrite TJ.
    destruct (bytes_eqb u t) eqn:B.
    + apply beq in B. subst u. do 2 f_equal. destruct (mem t (without t (tokens (m_value w)))) eqn:M; auto. apply mem_in in M. apply filter_In in M as [_ M].
      assert (X : bytes_eqb t t = true) by (apply beq; auto). rewrite X in M. discriminate.
    + do 2 f_equal. apply eq_true_iff_eq. rewrite !mem_in. unfold without. rewrite filter_In. split; [tauto|]. intros I; split; auto.
      destruct (bytes_eqb t u) eqn:B'; auto. apply beq in B'. subst. assert (X : bytes_eqb u u = true) by (apply beq; auto). congruence.
  - rewrite (ask s' _ (TValue j) T' LJ'). auto.
Qed.

(** ** Concrete histories *)
Fixpoint trun (l : list top) (s : tst) : option tst := match l with [] => Some s | o :: l => match texec o s with Ok _ s' => trun l s' | _ => None end end.
Lemma trun_any : forall l s s', anyhow s -> trun l s = Some s' -> anyhow s'.
Proof.
  induction l as [|o l IH]; intros s s' A E; cbn [trun] in E; [inversion E; subst; auto|]. destruct (texec o s) as [r s1|? ?|?] eqn:X; try discriminate.
  eapply IH; [|exact E]. eapply an_call; eauto.
Qed.
Definition tplayed (l : list top) : tst := match trun l (mkTst None []) with Some s => s | None => mkTst None [] end.
Lemma tplayed_any : forall l, anyhow (tplayed l).
Proof. intros l. unfold tplayed. destruct (trun l (mkTst None [])) eqn:E; [eapply trun_any; eauto; constructor|constructor]. Qed.

Definition ta : bytes := [97].
Definition tb : bytes := [98].
Definition tc : bytes := [99].
(** Two lists; an attribute with a repeated token and two spaces. *)
Definition s1 := tplayed [TNew; TNew; ESet (Some [98; 32; 32; 97; 32; 98])].
Definition w1 := mkTmean (Some [98; 32; 32; 97; 32; 98]) [None; None].
Ltac ascii := split; [repeat (apply Forall_cons; [vm_compute; reflexivity|]); apply Forall_nil|vm_compute; reflexivity].
Lemma s1_reach : treach s1 w1.
Proof.
  eapply (tr_call (tplayed [TNew; TNew]) (mkTmean None [None; None]) (ESet (Some [98; 32; 32; 97; 32; 98])) TDone); [|split; [ascii|]|vm_compute; reflexivity].
  - eapply (tr_call (tplayed [TNew]) (mkTmean None [None]) TNew); [|exact I|vm_compute; reflexivity].
    eapply (tr_call (mkTst None []) (mkTmean None []) TNew); [apply tr_start|exact I|vm_compute; reflexivity].
  - intros j _ H. destruct j as [|[|[|]]]; discriminate.
Qed.
Lemma token_case : treach s1 w1 /\ tlegal w1 (TAdd 0 tc) /\ tlegal w1 (TRemove 1 tb) /\ tokens (m_value w1) = [tb; ta] /\
  tans (texec (TContains 0 ta) s1) = Some (TBool true) /\ tans (texec (TItem 1 1) s1) = Some (TStr (Some ta)).
Proof.
  split; [exact s1_reach|]. split; [|split; [|repeat split; vm_compute; reflexivity]].
  - split; [cbn; lia|]. split; [split; [discriminate|]; apply Forall_cons; [split; [vm_compute; reflexivity|discriminate]|apply Forall_nil]|].
    split; [ascii|]. intros _ j _ H. destruct j as [|[|[|]]]; discriminate.
  - split; [cbn; lia|]. intros j _ H. destruct j as [|[|[|]]]; discriminate.
Qed.

(** The value a list last wrote comes back from elsewhere. *)
Definition s2 := tplayed [TNew; TAdd 0 ta; ESet (Some tb); TContains 0 tb; ESet (Some ta)].
Lemma echo : exists s i t u, anyhow s /\ t <> u /\ tans (texec (TValue i) s) = Some (TStr (Some t)) /\
  tans (texec (TContains i t) s) = Some (TBool false) /\ tans (texec (TContains i u) s) = Some (TBool true).
Proof. exists s2, 0%nat, ta, tb. split; [apply tplayed_any|]. split; [discriminate|]. repeat split; vm_compute; reflexivity. Qed.
(** Two lists on one attribute are enough. *)
Definition s3 := tplayed [TNew; TNew; TAdd 0 ta; TAdd 1 tb; TContains 0 tb; TRemove 1 tb].
Lemma two_lists : exists s t, anyhow s /\ tans (texec (TContains 1 t) s) = Some (TBool false) /\ tans (texec (TContains 0 t) s) = Some (TBool true).
Proof. exists s3, tb. split; [apply tplayed_any|]. repeat split; vm_compute; reflexivity. Qed.
(** A token with a space is taken; it is two for the next reader. *)
Definition s4 := tplayed [TNew; TNew; TAdd 0 [97; 32; 98]].
Lemma blank_token : exists s t, anyhow s /\ tans (texec (TContains 0 t) s) = Some (TBool true) /\ tans (texec (TContains 1 t) s) = Some (TBool false).
Proof. exists s4, [97; 32; 98]. split; [apply tplayed_any|]. repeat split; vm_compute; reflexivity. Qed.
(** A token that is not ASCII is cut on its way to the attribute (here U+00E9). *)
Definition s5 := tplayed [TNew; TNew; TAdd 0 [195; 169]].
Lemma cut_token : exists s, anyhow s /\ tans (texec (TContains 0 [195; 169]) s) = Some (TBool true) /\
  tans (texec (TValue 0) s) = Some (TStr (Some [195])) /\ tans (texec (TContains 1 [195; 169]) s) = Some (TBool false).
Proof. exists s5. split; [apply tplayed_any|]. repeat split; vm_compute; reflexivity. Qed.
(** A value that is not ASCII is read only in part: U+00E9, space, b. *)
Definition s6 := tplayed [TNew; ESet (Some [195; 169; 32; 98])].
Lemma cut_value : exists s v t, anyhow s /\ tans (texec (TValue 0) s) = Some (TStr (Some v)) /\ word t v /\ tans (texec (TContains 0 t) s) = Some (TBool false).
Proof.
  exists s6, [195; 169; 32; 98], tb. split; [apply tplayed_any|]. split; [vm_compute; reflexivity|]. split; [|vm_compute; reflexivity].
  split; [discriminate|]. split; [reflexivity|]. exists [195; 169; 32], []. split; auto. split; auto. right. exists [195; 169], 32. auto.
Qed.
(** Removing a token from nothing makes the attribute appear. *)
Definition s7 := tplayed [TNew].
Lemma appears : exists s t s', anyhow s /\ tans (texec EGet s) = Some (TStr None) /\ texec (TRemove 0 t) s = Ok TDone s' /\ tans (texec EGet s') = Some (TStr (Some [])).
Proof.
  exists s7, ta, (mkTst (Some []) [mkTlist [] 0 (Some []) false]). split; [apply tplayed_any|]. repeat split; vm_compute; reflexivity.
Qed.
