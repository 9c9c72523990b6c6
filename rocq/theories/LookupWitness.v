(** Elements with prefixes and declarations, by history. *)
From Coq Require Import List Arith NArith Bool Lia.
From Verif Require Import Base HeapModel HeapSpec HeapInv HeapExec NameModel HistModel HistProofs TreeProofs4 TreeWitness WalkModel WalkSpec WalkProofs WalkReach HtmlWitness OptionWitness
  LookupModel LookupSpec LookupProofs LookupReach.
Import ListNotations.

(** The document 0 has <a:r xmlns="d"><b:s>t</b:s></a:r>, elements 1 and 2 and text 5, with
    a:r in the namespace "u" and b:s in none; the attribute is 3.  Apart are
    <a:r><b:s/></a:r>, elements 6 and 7, and <r xmlns:p="q"/>, element 8, attribute 9. *)
Definition a_ : bytes := [97]%N.
Definition b_ : bytes := [98]%N.
Definition d_ : bytes := [100]%N.
Definition p_ : bytes := [112]%N.
Definition q_ : bytes := [113]%N.
Definition u_ : bytes := [117]%N.
Definition lands_ops : list op :=
  [ONewDocument; OCreate 0 ELEMENT (Some [114]%N) None (Some u_) (Some a_); OCreate 0 ELEMENT (Some [115]%N) None None (Some b_);
   OCreate 0 ATTRIBUTE (Some s_xmlns) None (Some XMLNS_NS) None; typed d_; typed [116]%N;
   OCreate 0 ELEMENT (Some [114]%N) None (Some u_) (Some a_); OCreate 0 ELEMENT (Some [115]%N) None None (Some b_);
   OCreate 0 ELEMENT (Some [114]%N) None None None; OCreate 0 ATTRIBUTE (Some p_) None (Some XMLNS_NS) (Some s_xmlns); typed q_;
   OAppend 0 1; OAppend 1 2; OAppend 3 4; OSetAttribute 1 3; OAppend 2 5; OAppend 6 7; OAppend 9 10; OSetAttribute 8 9].
Definition lands : st := fst (played lands_ops).
Definition lands_client : client := snd (played lands_ops).
Lemma lands_reach : reach 19 lands lands_client.
Proof. apply (played_reach lands_ops); [vm_compute; reflexivity|unfold short; vm_compute; reflexivity]. Qed.
Lemma lands_short : short 19.
Proof. unfold short. vm_compute. reflexivity. Qed.
Definition nd (i : id) : node := match s_heap lands i with Some n => n | None => mkNode TEXT None None None None None None None None None None 0 false [] [] [] false end.
Lemma nd_ok : forall i, match s_heap lands i with Some _ => true | None => false end = true -> s_heap lands i = Some (nd i).
Proof. intros i. unfold nd. destruct (s_heap lands i); [reflexivity|discriminate]. Qed.
Lemma h0 : s_heap lands 0 = Some (nd 0). Proof. apply nd_ok. vm_compute. reflexivity. Qed.
Lemma h1 : s_heap lands 1 = Some (nd 1). Proof. apply nd_ok. vm_compute. reflexivity. Qed.
Lemma h2 : s_heap lands 2 = Some (nd 2). Proof. apply nd_ok. vm_compute. reflexivity. Qed.
Lemma h3 : s_heap lands 3 = Some (nd 3). Proof. apply nd_ok. vm_compute. reflexivity. Qed.
Lemma h4 : s_heap lands 4 = Some (nd 4). Proof. apply nd_ok. vm_compute. reflexivity. Qed.
Lemma h5 : s_heap lands 5 = Some (nd 5). Proof. apply nd_ok. vm_compute. reflexivity. Qed.
Lemma h6 : s_heap lands 6 = Some (nd 6). Proof. apply nd_ok. vm_compute. reflexivity. Qed.
Lemma h7 : s_heap lands 7 = Some (nd 7). Proof. apply nd_ok. vm_compute. reflexivity. Qed.
Lemma h8 : s_heap lands 8 = Some (nd 8). Proof. apply nd_ok. vm_compute. reflexivity. Qed.
Lemma h9 : s_heap lands 9 = Some (nd 9). Proof. apply nd_ok. vm_compute. reflexivity. Qed.
Lemma h10 : s_heap lands 10 = Some (nd 10). Proof. apply nd_ok. vm_compute. reflexivity. Qed.
Lemma some_inj : forall (a b : node), Some a = Some b -> a = b. Proof. intros a b E. congruence. Qed.
Ltac pick h A := let E := fresh in pose proof (some_inj _ _ (eq_trans (eq_sym h) A)) as E; subst.
Ltac now_c := vm_compute; reflexivity.
Ltac now_d := vm_compute; discriminate.

Lemma says3 : attr_says (s_heap lands) 3 d_.
Proof.
  rewrite <- (app_nil_r d_). change (d_ ++ []) with (concat [d_]). apply (says_text _ _ [4]); [apply kids_ok; now_c|].
  constructor; [|constructor]. exists (nd 4). split; [exact h4|]. split; now_c.
Qed.
Lemma says9 : attr_says (s_heap lands) 9 q_.
Proof.
  rewrite <- (app_nil_r q_). change (q_ ++ []) with (concat [q_]). apply (says_text _ _ [10]); [apply kids_ok; now_c|].
  constructor; [|constructor]. exists (nd 10). split; [exact h10|]. split; now_c.
Qed.
Lemma attrs1 : n_attrs (nd 1) = [3]. Proof. now_c. Qed.
Lemma attrs2 : n_attrs (nd 2) = []. Proof. now_c. Qed.
Lemma attrs6 : n_attrs (nd 6) = []. Proof. now_c. Qed.
Lemma attrs7 : n_attrs (nd 7) = []. Proof. now_c. Qed.
Lemma attrs8 : n_attrs (nd 8) = [9]. Proof. now_c. Qed.
Lemma has1 : has_attr (s_heap lands) 1 s_xmlns d_.
Proof.
  exists (nd 1), 3. split; [exact h1|]. split; [now_c|]. split; [|exact says3]. rewrite attrs1. apply (fn_here _ _ _ (nd 3)); [exact h3|now_c].
Qed.
Lemma none2 : forall a, ~ first_named (s_heap lands) s_xmlns (n_attrs (nd 2)) a.
Proof. intros a F. rewrite attrs2 in F. inversion F. Qed.
Lemma none8 : forall a, ~ first_named (s_heap lands) s_xmlns (n_attrs (nd 8)) a.
Proof.
  intros a F. rewrite attrs8 in F. inversion F as [? m l A B|? m l x A B C]; subst; [|inversion C]. pick h9 A. revert B. now_d.
Qed.
Lemma default5 : default_ns (s_heap lands) 5 (Some (Some d_)).
Proof.
  apply (dn_over _ _ (nd 5) 2); [exact h5|now_d|now_c|]. apply (dn_up _ _ (nd 2) 1); [exact h2|now_c|now_d|exact none2|now_c|].
  apply (dn_says _ _ (nd 1)); [exact h1|now_c|now_d|exact has1].
Qed.
Lemma default3 : default_ns (s_heap lands) 3 (Some (Some d_)).
Proof.
  apply (dn_over _ _ (nd 3) 1); [exact h3|now_d|now_c|]. apply (dn_says _ _ (nd 1)); [exact h1|now_c|now_d|exact has1].
Qed.
Lemma bears_not : forall i n p, s_heap lands i = Some n -> negb (is_none (n_ns n)) && isequal (n_prefix n) p = false -> ~ bears n p.
Proof. intros i n p H E B. apply bears_iff in B. congruence. Qed.
Lemma null5 : stands_for (s_heap lands) None 5 (Some d_).
Proof.
  apply (sf_over _ _ _ (nd 5) 2); [exact h5|now_d|now_c|].
  apply (sf_up _ _ _ (nd 2) 1); [exact h2|now_c|apply (bears_not 2); [exact h2|now_c]|intros (a & F); exact (none2 a F)|now_c|].
  apply (sf_says _ _ _ (nd 1)); [exact h1|now_c|apply (bears_not 1); [exact h1|now_c]|exact has1].
Qed.
Lemma anc_case : forall h e i n, h i = Some n -> anc h e i -> e = i \/ exists p, n_parent n = Some p /\ anc h e p.
Proof. intros h e i n H A. inversion A as [|? m p B C D]; subst; [auto|]. right. exists p. split; [congruence|auto]. Qed.
Lemma nothing7 : nothing_declared (s_heap lands) 7.
Proof.
  intros e n a na A H I B. exfalso. destruct (anc_case _ _ _ _ h7 A) as [->|(p & P & A')].
  - pick h7 H. rewrite attrs7 in I. exact I.
  - assert (Q : n_parent (nd 7) = Some 6) by now_c. assert (p = 6) by congruence. subst p.
    destruct (anc_case _ _ _ _ h6 A') as [->|(p & P' & _)].
    + pick h6 H. rewrite attrs6 in I. exact I.
    + revert P'. now_d.
Qed.
Lemma stands7 : stands_for (s_heap lands) (Some a_) 7 (Some u_).
Proof.
  apply (sf_up _ _ _ (nd 7) 6); [exact h7|now_c|apply (bears_not 7); [exact h7|now_c]|intros (a & na & I & _); rewrite attrs7 in I; exact I|now_c|].
  apply (sf_own _ _ _ (nd 6)); [exact h6|now_c|split; [now_d|now_c]|now_c].
Qed.
Lemma missed_case : s_heap lands 8 = Some (nd 8) /\ n_type (nd 8) = ELEMENT /\ n_parent (nd 8) = None /\ ~ bears (nd 8) (Some p_) /\
  declares (s_heap lands) 8 (Some p_) q_ /\ (forall a, ~ first_named (s_heap lands) s_xmlns (n_attrs (nd 8)) a) /\ none_in_xmlns (s_heap lands) (nd 8).
Proof.
  split; [exact h8|]. split; [now_c|]. split; [now_c|]. split; [apply (bears_not 8); [exact h8|now_c]|]. split.
  - exists (nd 8), 9, (nd 9). split; [exact h8|]. split; [rewrite attrs8; left; reflexivity|]. split; [exact h9|]. split; [now_c|]. split; [now_c|exact says9].
  - split; [exact none8|]. intros a na I A. rewrite attrs8 in I. destruct I as [<-|[]]. pick h9 A. now_d.
Qed.
Lemma taken_case : s_heap lands 1 = Some (nd 1) /\ n_type (nd 1) = ELEMENT /\ ~ bears (nd 1) (Some p_) /\ has_attr (s_heap lands) 1 s_xmlns d_ /\
  none_in_xmlns (s_heap lands) (nd 1) /\ stands_for (s_heap lands) (Some p_) 1 None.
Proof.
  split; [exact h1|]. split; [now_c|]. assert (B : ~ bears (nd 1) (Some p_)) by (apply (bears_not 1); [exact h1|now_c]). split; [exact B|]. split; [exact has1|]. split.
  - intros a na I A. rewrite attrs1 in I. destruct I as [<-|[]]. pick h3 A. now_d.
  - apply (sf_up _ _ _ (nd 1) 0); [exact h1|now_c|exact B| |now_c|apply (sf_alone _ _ _ (nd 0)); [exact h0|now_d|now_c]].
    intros (a & na & I & A & _ & N). rewrite attrs1 in I. destruct I as [<-|[]]. pick h3 A. revert N. now_d.
Qed.
Lemma missed_refuted : exists k s g i x r s', reach k s g /\ short k /\ stands_for (s_heap s) (Some x) i (Some r) /\ lookup_namespace i (Some x) s = Ok None s'.
Proof.
  destruct missed_case as (A & B & C & D & E & F & G). destruct (reach_missed _ _ _ lands_reach lands_short _ _ _ _ A B C D E F G) as (X & Y).
  exists 19, lands, lands_client, 8, p_, q_, lands. split; [exact lands_reach|]. split; [exact lands_short|]. split; [exact X|exact Y].
Qed.
Lemma taken_refuted : exists k s g i x v s', reach k s g /\ short k /\ stands_for (s_heap s) (Some x) i None /\ lookup_namespace i (Some x) s = Ok (Some v) s'.
Proof.
  destruct taken_case as (A & B & C & D & E & F). exists 19, lands, lands_client, 1, p_, d_, lands. split; [exact lands_reach|]. split; [exact lands_short|].
  split; [exact F|]. exact (reach_taken _ _ _ lands_reach lands_short _ _ _ _ A B C D E).
Qed.
Lemma document_case : s_heap lands 0 = Some (nd 0) /\ n_type (nd 0) = DOCUMENT /\ n_parent (nd 0) = None.
Proof. split; [exact h0|]. split; now_c. Qed.
Lemma prefix_case : live (s_heap lands) 5 /\ anc (s_heap lands) 2 5 /\ type_of (s_heap lands) 2 = Some ELEMENT.
Proof.
  split; [exists (nd 5); exact h5|]. split; [apply (anc_step _ _ _ (nd 5) 2); [exact h5|now_c|apply anc_refl]|]. unfold type_of. rewrite h2. now_c.
Qed.
Lemma prefix_ok_case : live (s_heap lands) 0 /\ forall e, anc (s_heap lands) e 0 -> type_of (s_heap lands) e <> Some ELEMENT.
Proof.
  split; [exists (nd 0); exact h0|]. intros e A. destruct (anc_case _ _ _ _ h0 A) as [->|(p & P & _)]; [|exfalso; revert P; now_d].
  unfold type_of. rewrite h0. now_d.
Qed.
Lemma off1 : off_attributes (s_heap lands) 1.
Proof.
  intros a n A H. destruct (anc_case _ _ _ _ h1 A) as [->|(p & P & A')]. { pick h1 H. now_d. }
  assert (Q : n_parent (nd 1) = Some 0) by now_c. assert (p = 0) by congruence. subst p. destruct (anc_case _ _ _ _ h0 A') as [->|(p & P' & _)]; [|exfalso; revert P'; now_d].
  pick h0 H. now_d.
Qed.
Lemma leak_case : s_heap lands 3 = Some (nd 3) /\ n_type (nd 3) = ATTRIBUTE /\ n_parent (nd 3) = Some 1 /\ s_heap lands 1 = Some (nd 1) /\
  off_attributes (s_heap lands) 1 /\ (n_ref (nd 1%nat) + 1 < two32)%N /\ default_ns (s_heap lands) 3 (Some (Some d_)).
Proof.
  split; [exact h3|]. split; [now_c|]. split; [now_c|]. split; [exact h1|]. split; [exact off1|]. split; [now_c|exact default3].
Qed.
Definition plain_at (s : st) (j : id) : bool :=
  match s_heap s j with
  | Some n => if ntype_eqb (n_type n) ATTRIBUTE
              then match kids s j with Some k => forallb (fun c => match s_heap s c with Some m => ntype_eqb (n_type m) TEXT | None => false end) k | None => false end
              else true
  | None => true
  end.
Lemma plain_ok : forall s, linked s -> forallb (plain_at s) (seq 0 (s_nxt s)) = true -> plain_attributes (s_heap s).
Proof.
  intros s L F a na l c A T C I. rewrite forallb_forall in F. assert (LT : a < s_nxt s) by (apply (ln_alloc _ L); exists na; auto).
  specialize (F a). rewrite in_seq in F. specialize (F ltac:(lia)). unfold plain_at in F. rewrite A, T in F. cbn [ntype_eqb] in F.
  destruct (kids s a) as [k|] eqn:KD; [|discriminate].
  rewrite (children_det _ _ _ _ C (kids_ok _ _ _ KD)) in I. rewrite forallb_forall in F. specialize (F c I). unfold type_of.
  destruct (s_heap s c) as [m|]; [|discriminate]. apply ntype_eqb_eq in F. cbn. congruence.
Qed.
Lemma lands_plain : plain_attributes (s_heap lands).
Proof. apply plain_ok; [exact (reach_linked _ _ _ lands_reach lands_short)|now_c]. Qed.
