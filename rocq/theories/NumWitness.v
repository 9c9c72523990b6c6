(** Concrete elements with integer and boolean properties. *)
From Coq Require Import List Arith NArith ZArith Bool Lia ZifyBool ZifyNat ZifyN.
From Verif Require Import Base StringModel StringSpec NameModel AttrModel AttrSpec AttrWitness NumModel NumSpec NumProofs.
Import ListNotations.
Local Open Scope N_scope.

Definition size_ : bytes := [115;105;122;101].
Lemma size_name : a_name size_.
Proof. apply ascii_name. reflexivity. Qed.
(** size="010", size=" -12px", no size, size without a value, size="9999999999". *)
Definition sized (v : bytes) : list aop := [ANew 0 false false; ASet j0 0 None size_ (Some v)].
Definition bare : list aop := [ANew 0 false false].
Definition unset : list aop := [ANew 0 false false; ACreate j0 0 size_ None None; ASetNode 0 None 0].
(** Two attributes with this local name. *)
Definition twice : list aop := [ANew 0 false false; ASet j0 0 svg size_ (Some []); ACreate j0 0 size_ (Some [117]) None; ASetNode 0 (Some [117]) 1].
(** A prefixed one. *)
Definition prefixed_size : list aop := [ANew 0 false false; ACreate j0 0 size_ svg (Some [112]); ASetNode 0 svg 0].

Definition val {A} (r : res ast A) : option (A + exn) := match r with Ok a _ => Some (inl a) | Exc e _ => Some (inr e) | Bad _ => None end.
Lemma val_ok : forall A (r : res ast A) a, val r = Some (inl a) -> exists s, r = Ok a s.
Proof. intros A [a0 s|e s|b] a H; inversion H; eauto. Qed.
Lemma val_exc : forall A (r : res ast A) e, val r = Some (inr e) -> exists s, r = Exc e s.
Proof. intros A [a0 s|x s|b] e H; inversion H; eauto. Qed.

Lemma octal_read : exists k s Q e n s', areach k s Q /\ answer (aexec (AGet e None n) s) = Some (RVal (Some [48;49;48])) /\ get_int32_property e n s = Ok 8%Z s'.
Proof.
  destruct (val_ok _ (get_int32_property 0 size_ (astate (sized [48;49;48]))) 8%Z) as (s' & E); [vm_compute; reflexivity|].
  exists 2%nat, (astate (sized [48;49;48])), (ameans (sized [48;49;48])), 0%nat, size_, s'. split; [apply (played_areach (sized [48;49;48])); vm_compute; reflexivity|]. split; [vm_compute; reflexivity|exact E].
Qed.
Lemma wrapped_read : exists k s Q e n s', areach k s Q /\ answer (aexec (AGet e None n) s) = Some (RVal (Some [52;50;57;52;57;54;55;50;57;55])) /\ get_int32_property e n s = Ok 1%Z s'.
Proof.
  destruct (val_ok _ (get_int32_property 0 size_ (astate (sized [52;50;57;52;57;54;55;50;57;55]))) 1%Z) as (s' & E); [vm_compute; reflexivity|].
  exists 2%nat, (astate (sized [52;50;57;52;57;54;55;50;57;55])), (ameans (sized [52;50;57;52;57;54;55;50;57;55])), 0%nat, size_, s'. split; [apply (played_areach (sized [52;50;57;52;57;54;55;50;57;55])); vm_compute; reflexivity|]. split; [vm_compute; reflexivity|exact E].
Qed.
Lemma val_two : forall A (m : M ast unit) (f : M ast A) s a, val (bind m (fun _ => f) s) = Some (inl a) -> exists s1 s2, m s = Ok tt s1 /\ f s1 = Ok a s2.
Proof. intros A m f s a. unfold bind. destruct (m s) as [[] s1|e s1|b]; cbn; try discriminate. intros H. apply val_ok in H as (s2 & H). eauto. Qed.
Lemma twice_clear : exists k s Q e n j s1 s2, areach k s Q /\ an_element Q e /\ set_bool_property j e n false s = Ok tt s1 /\ get_bool_property e n s1 = Ok true s2.
Proof.
  destruct (val_two _ (set_bool_property j0 0 size_ false) (get_bool_property 0 size_) (astate twice) true) as (s1 & s2 & E1 & E2); [vm_compute; reflexivity|].
  exists 4%nat, (astate twice), (ameans twice), 0%nat, size_, j0, s1, s2. split; [apply (played_areach twice); vm_compute; reflexivity|]. split; [apply elb_ok; vm_compute; reflexivity|]. split; [exact E1|exact E2].
Qed.
Lemma prefixed_clear : exists k s Q e n j s1, areach k s Q /\ an_element Q e /\ set_bool_property j e n false s = Exc NOT_FOUND_ERR s1.
Proof.
  destruct (val_exc _ (set_bool_property j0 0 size_ false (astate prefixed_size)) NOT_FOUND_ERR) as (s1 & E); [vm_compute; reflexivity|].
  exists 3%nat, (astate prefixed_size), (ameans prefixed_size), 0%nat, size_, j0, s1. split; [apply (played_areach prefixed_size); vm_compute; reflexivity|]. split; [vm_compute; discriminate|exact E].
Qed.

(** " -12px" *)
Definition px : bytes := [32;45;49;50;112;120].
Lemma twelve : numeral 10 [49;50] 12.
Proof.
  constructor; [|discriminate|discriminate]. change [49;50] with ([49] ++ [50]). change 12 with (1 * 10 + 2). constructor; [|exact (d_number 50 ltac:(lia))|lia].
  change [49] with ([] ++ [49]). change 1 with (0 * 10 + 1). constructor; [constructor|exact (d_number 49 ltac:(lia))|lia].
Qed.
Lemma px_case : areach 2 (astate (sized px)) (ameans (sized px)) /\ written (ameans (sized px)) 0 size_ = Some (Some ([32] ++ [45] ++ [49;50] ++ [112;120])) /\
  Forall blank [32] /\ sign [45] (Z.of_N 12) (-12) /\ numeral 10 [49;50] 12 /\ ends 10 [49;50] [112;120].
Proof.
  split; [apply (played_areach (sized px)); vm_compute; reflexivity|]. split; [vm_compute; reflexivity|]. split; [constructor; [right; reflexivity|constructor]|].
  split; [exact (s_minus 12)|]. split; [exact twelve|]. split; [|discriminate]. intros c d H D. inversion H; subst c. apply digit_ok in D. vm_compute in D. inversion D. lia.
Qed.
Lemma write_case : areach 1 (astate bare) (ameans bare) /\ an_element (ameans bare) 0 /\ a_name size_ /\ int32 (-5) /\ written (ameans bare) 0 size_ = None /\
  exists s1, set_int32_property j0 0 size_ (-5) (astate bare) = Ok tt s1.
Proof.
  split; [apply (played_areach bare); vm_compute; reflexivity|]. split; [apply elb_ok; vm_compute; reflexivity|]. split; [exact size_name|]. split; [unfold int32; lia|]. split; [vm_compute; reflexivity|].
  apply val_ok. vm_compute. reflexivity.
Qed.
Lemma unset_case : areach 3 (astate unset) (ameans unset) /\ written (ameans unset) 0 size_ = Some None.
Proof. split; [apply (played_areach unset); vm_compute; reflexivity|vm_compute; reflexivity]. Qed.
Lemma bool_case : areach 2 (astate (sized px)) (ameans (sized px)) /\ exists y, q_el (ameans (sized px)) 0 = Some y /\ q_ro y = false /\ q_ents y <> [] /\
  single (ameans (sized px)) 0 size_ /\ unprefixed (ameans (sized px)) 0 size_.
Proof.
  split; [apply (played_areach (sized px)); vm_compute; reflexivity|]. eexists. split; [vm_compute; reflexivity|]. split; [reflexivity|]. split; [discriminate|]. split.
  - intros y a b Y IA IB _ _. vm_compute in Y. inversion Y; subst y. cbn in IA, IB. destruct IA as [<-|[]], IB as [<-|[]]. auto.
  - intros y m x Y IM _ X. vm_compute in Y. inversion Y; subst y. cbn in IM. destruct IM as [<-|[]]. vm_compute in X. inversion X. auto.
Qed.
