(** Every attribute call of a careful caller does what AttrSpec says. *)
From Coq Require Import List Arith NArith Bool Lia ZifyBool ZifyNat ZifyN.
From Verif Require Import Base StringModel StringSpec StringProofs NameModel NameProofs RingModel RingSpec RingProofs AttrModel AttrSpec AttrRing AttrProofs.
Import ListNotations.
Local Open Scope dom_scope.

Lemma bind_exc : forall S A B (m : M S A) (f : A -> M S B) s e s', m s = Exc e s' -> bind m f s = Exc e s'.
Proof. intros. unfold bind. rewrite H. auto. Qed.
Lemma try_ok : forall S A (m : M S A) s a s', m s = Ok a s' -> try m s = Ok (inl a) s'.
Proof. intros. unfold try. rewrite H. auto. Qed.

Definition outcome (o : aop) (s : ast) (r : aout) (Q' : attrs) : Prop :=
  exists s' L', sim s' Q' L' /\ (aexec o s = Ok r s' \/ exists e, r = RErr e /\ aexec o s = Exc e s').

Lemma down : forall n, (0 < n)%N -> (n < 4294967296)%N -> u32 (n + 4294967295) = (n - 1)%N.
Proof. intros n P B. unfold u32. replace (n + 4294967295)%N with ((n - 1) + 1 * 4294967296)%N by lia. rewrite N.mod_add by lia. apply N.mod_small. lia. Qed.

Section Run.
  Variables (k : nat) (s : ast) (Q : attrs) (L : nat -> list nat).
  Hypotheses (SM : sim s Q L) (GD : good k Q) (BND : (N.of_nat k < 4294967290)%N).

  Lemma ref_up : forall a x, q_at Q a = Some x -> u32 (a_ref x + 1) = (a_ref x + 1)%N.
  Proof. intros a x H. unfold u32. apply N.mod_small. pose proof (gd_ref _ _ GD a x H). lia. Qed.

  Lemma give_ok : forall a x, q_at Q a = Some x -> exists s', attr_ref a s = Ok tt s' /\ sim s' (put_at Q a (Some (set_aref (a_ref x + 1) x))) L /\
    as_ln s' = as_ln s /\ as_ring s' = as_ring s /\ as_nln s' = as_nln s.
  Proof.
    intros a x H. unfold attr_ref. destruct (aupd_ok s Q L a x (fun x => set_aref (u32 (a_ref x + 1)) x) SM H) as (s' & U & S' & R).
    rewrite (ref_up a x H) in S'. exists s'; auto.
  Qed.
End Run.

Lemma unref_ok : forall s Q L a x, sim s Q L -> q_at Q a = Some x -> (0 < a_ref x)%N -> (a_ref x < 4294967296)%N ->
  exists s', attr_unref a s = Ok tt s' /\
    sim s' (put_at Q a (if (a_ref x - 1 =? 0)%N then unless_free (set_aref (a_ref x - 1) x) else Some (set_aref (a_ref x - 1) x))) L.
Proof.
  intros s Q L a x SM H P B. unfold attr_unref. step (aload_ok s Q L SM a x H). rewrite down by auto.
  destruct (aupd_ok s Q L a x (set_aref (a_ref x - 1)) SM H) as (s1 & U1 & S1 & _). step U1.
  destruct (a_ref x - 1 =? 0)%N eqn:Z; [|exists s1; auto].
  destruct (try_destroy_ok s1 _ _ a (set_aref (a_ref x - 1) x) S1) as (s2 & U2 & S2 & _). { cbn. apply put_same. }
  exists s2. split; auto. apply sim_put_put in S2. auto.
Qed.
Lemma unless_held : forall x, (a_ref x =? 0)%N = false -> unless_free x = Some x.
Proof. intros x H. unfold unless_free. rewrite H. destruct (a_parent x); auto. Qed.

Section Run2.
  Variables (k : nat) (s : ast) (Q : attrs) (L : nat -> list nat).
  Hypotheses (SM : sim s Q L) (GD : good k Q) (BND : (N.of_nat k < 4294967290)%N).

  Lemma el_some : forall e, an_element Q e -> exists y, q_el Q e = Some y.
  Proof. intros e H. unfold an_element in H. destruct (q_el Q e); [eauto|congruence]. Qed.

  Lemma same_out : forall o r, (aexec o s = Ok r s \/ exists e, r = RErr e /\ aexec o s = Exc e s) -> outcome o s r Q.
  Proof. intros o r H. exists s, L. auto. Qed.

  Lemma run_get : forall e ns n, alegal Q (AGet e ns n) -> outcome (AGet e ns n) s (fst (qmeans (AGet e ns n) Q)) (snd (qmeans (AGet e ns n) Q)).
  Proof.
    intros e ns n H. destruct (el_some e H) as [y Y]. cbn [qmeans]. rewrite Y. destruct (find_ok s Q L SM e y ns n Y) as [F1 F2].
    destruct (entry ns n (q_ents y)) as [z|] eqn:E.
    - destruct (F2 z eq_refl) as (l1 & c & l2 & m1 & m2 & EL & EN & LN & LC & FD).
      destruct (gd_ent _ _ GD e y z Y) as (x & X & PX & NX). { rewrite EN. apply in_app_iff; simpl; auto. } rewrite X. cbn [fst snd].
      destruct (get_value_ok s Q L (l_attr z) x SM X (gd_ok _ _ GD _ _ X)) as (s' & U & S' & _).
      exists s', L. split; auto. left. cbn [aexec]. unfold get_attr. rewrite bind_assoc. step (eload_ok s Q L SM e y Y). cbn [elem e_head].
      rewrite bind_assoc. step FD. assert (LL : lload c s = Ok z s) by (unfold lload; rewrite LC; auto). rewrite bind_assoc. step LL. rewrite bind_assoc. step U. reflexivity.
    - apply same_out. left. cbn [aexec]. unfold get_attr. rewrite bind_assoc. step (eload_ok s Q L SM e y Y). cbn [elem e_head].
      rewrite bind_assoc. step (F1 eq_refl). reflexivity.
  Qed.

  Lemma run_has : forall e ns n, alegal Q (AHas e ns n) -> outcome (AHas e ns n) s (fst (qmeans (AHas e ns n) Q)) (snd (qmeans (AHas e ns n) Q)).
  Proof.
    intros e ns n H. destruct (el_some e H) as [y Y]. cbn [qmeans]. rewrite Y. destruct (find_ok s Q L SM e y ns n Y) as [F1 F2]. cbn [fst snd].
    apply same_out. left. cbn [aexec]. unfold has_attr. rewrite bind_assoc. step (eload_ok s Q L SM e y Y). cbn [elem e_head]. rewrite bind_assoc.
    destruct (entry ns n (q_ents y)) as [z|] eqn:E.
    - destruct (F2 z eq_refl) as (l1 & c & l2 & m1 & m2 & EL & EN & LN & LC & FD). step FD. reflexivity.
    - step (F1 eq_refl). reflexivity.
  Qed.

  Lemma run_node : forall e ns n, alegal Q (ANode e ns n) -> outcome (ANode e ns n) s (fst (qmeans (ANode e ns n) Q)) (snd (qmeans (ANode e ns n) Q)).
  Proof.
    intros e ns n H. destruct (el_some e H) as [y Y]. cbn [qmeans]. rewrite Y. destruct (find_ok s Q L SM e y ns n Y) as [F1 F2].
    destruct (entry ns n (q_ents y)) as [z|] eqn:E.
    - destruct (F2 z eq_refl) as (l1 & c & l2 & m1 & m2 & EL & EN & LN & LC & FD).
      destruct (gd_ent _ _ GD e y z Y) as (x & X & PX & NX). { rewrite EN. apply in_app_iff; simpl; auto. } rewrite X. cbn [fst snd].
      destruct (give_ok k s Q L SM GD BND (l_attr z) x X) as (s' & U & S' & _).
      exists s', L. split; auto. left. cbn [aexec]. unfold get_attr_node. rewrite bind_assoc. step (eload_ok s Q L SM e y Y). cbn [elem e_head].
      rewrite bind_assoc. step FD. assert (LL : lload c s = Ok z s) by (unfold lload; rewrite LC; auto). rewrite bind_assoc. step LL. rewrite bind_assoc. step U. reflexivity.
    - apply same_out. left. cbn [aexec]. unfold get_attr_node. rewrite bind_assoc. step (eload_ok s Q L SM e y Y). cbn [elem e_head].
      rewrite bind_assoc. step (F1 eq_refl). reflexivity.
  Qed.

  Lemma len_bound : forall e y, q_el Q e = Some y -> (N.of_nat (length (q_ents y)) < 4294967296)%N.
  Proof. intros e y H. pose proof (gd_len _ _ GD e y H). lia. Qed.

  Lemma run_length : forall e, alegal Q (ALength e) -> outcome (ALength e) s (fst (qmeans (ALength e) Q)) (snd (qmeans (ALength e) Q)).
  Proof.
    intros e H. destruct (el_some e H) as [y Y]. cbn [qmeans]. rewrite Y. cbn [fst snd]. apply same_out. left. cbn [aexec]. unfold map_length.
    rewrite bind_assoc. step (eload_ok s Q L SM e y Y). cbn [elem e_head]. step (list_length_ok s Q L SM e y Y (len_bound e y Y)). reflexivity.
  Qed.

  Lemma run_item : forall e i, alegal Q (AItem e i) -> outcome (AItem e i) s (fst (qmeans (AItem e i) Q)) (snd (qmeans (AItem e i) Q)).
  Proof.
    intros e i [H BI]. destruct (el_some e H) as [y Y]. cbn [qmeans]. rewrite Y.
    destruct (get_by_index_ok s Q L SM e y i Y (len_bound e y Y) BI) as (r & U & R).
    assert (P : forall f : option nat -> M ast aout, bind (map_item e i) f s = bind (match r with None => ret None | Some c => y <- lload c ;; attr_ref (l_attr y) ;;; ret (Some (l_attr y)) end) f s).
    { intros f. unfold map_item. rewrite bind_assoc. step (eload_ok s Q L SM e y Y). cbn [elem e_head]. rewrite bind_assoc. step U. reflexivity. }
    destruct (i <? N.of_nat (length (q_ents y)))%N.
    2:{ subst r. apply same_out. left. cbn [aexec fst]. rewrite P. reflexivity. }
    destruct (nth_error (q_ents y) (N.to_nat i)) as [n|] eqn:NE.
    2:{ subst r. apply same_out. left. cbn [aexec fst]. rewrite P. reflexivity. }
    destruct R as (c & -> & LC). destruct (gd_ent _ _ GD e y n Y (nth_error_In _ _ NE)) as (x & X & PX & NX). rewrite X. cbn [fst snd].
    destruct (give_ok k s Q L SM GD BND (l_attr n) x X) as (s' & U' & S' & _). exists s', L. split; auto. left. cbn [aexec]. rewrite P.
    assert (LL : lload c s = Ok n s) by (unfold lload; rewrite LC; auto). rewrite bind_assoc. step LL. rewrite bind_assoc. step U'. reflexivity.
  Qed.

  Lemma run_class : forall e c, alegal Q (AClass e c) -> outcome (AClass e c) s (fst (qmeans (AClass e c) Q)) (snd (qmeans (AClass e c) Q)).
  Proof.
    intros e c H. destruct (el_some e H) as [y Y]. cbn [qmeans]. rewrite Y. cbn [fst snd]. apply same_out. left. cbn [aexec]. unfold has_class.
    rewrite bind_assoc. step (eload_ok s Q L SM e y Y). reflexivity.
  Qed.

  (** *** Attributes *)
  Lemma at_some : forall a, owned Q a -> exists x, q_at Q a = Some x /\ (0 < a_ref x)%N.
  Proof. auto. Qed.
  Lemma run_value : forall a, alegal Q (AValue a) -> outcome (AValue a) s (fst (qmeans (AValue a) Q)) (snd (qmeans (AValue a) Q)).
  Proof.
    intros a (x & X & P). cbn [qmeans]. rewrite X. destruct (get_value_ok s Q L a x SM X (gd_ok _ _ GD _ _ X)) as (s' & U & S' & _).
    exists s', L. split; auto. left. cbn [aexec]. step U. reflexivity.
  Qed.
  Lemma par_el : forall a x, q_at Q a = Some x -> a_parent x <> None -> owned_el Q x.
  Proof.
    intros a x X N. destruct (a_parent x) as [e|] eqn:PX; [|congruence]. destruct (gd_par _ _ GD a x e X PX) as (y & Y & _). exists e, y; auto.
  Qed.
  Lemma run_set_value : forall a v, alegal Q (ASetValue a v) -> outcome (ASetValue a v) s (fst (qmeans (ASetValue a v) Q)) (snd (qmeans (ASetValue a v) Q)).
  Proof.
    intros a v [_ (x & X & N)]. cbn [qmeans]. rewrite X. pose proof (set_value_ok s Q L a x v SM X (par_el a x X N)) as W. unfold retype.
    destruct (writes x v) as [x'|e]; cbn [fst snd aexec].
    - destruct W as (s' & U & S' & _). exists s', L. split; auto. left. cbn [aexec]. step U. reflexivity.
    - destruct W as (s' & U & S'). exists s', L. split; auto. right. exists e. split; auto. apply bind_exc; auto.
  Qed.

  Lemma run_typed : forall (o : aop) a x t f same, q_at Q a = Some x -> t <> UNSET -> (forall z, same x = true -> f (set_type z x) = set_type z x) ->
    aexec o s = bind (bind (aupd a (set_type (match a_type x with UNSET => t | t => t end)))
                     (fun _ => if negb (atype_eqb (match a_type x with UNSET => t | t => t end) t) then raise ATTR_WRONG_TYPE_ERR
               else if same x then ret tt else aupd a f)) (fun _ => ret RDone) s ->
    outcome o s (fst (retype Q a (types t f x))) (snd (retype Q a (types t f x))).
  Proof.
    intros o a x t f same X NU SAME E. pose proof (typed_ok s Q L a x t f same SM X NU SAME) as W. cbv zeta in W. unfold retype.
    destruct (types t f x) as [x'|e]; cbn [fst snd].
    - destruct W as (s' & U & S'). exists s', L. split; auto. left. rewrite E. step U. reflexivity.
    - destruct W as (s' & U & S'). exists s', L. split; auto. right. exists e. split; auto. rewrite E. apply bind_exc; auto.
  Qed.
  Lemma run_set_bool : forall a v, alegal Q (ASetBool a v) -> outcome (ASetBool a v) s (fst (qmeans (ASetBool a v) Q)) (snd (qmeans (ASetBool a v) Q)).
  Proof.
    intros a v (x & X & P). cbn [qmeans]. rewrite X. apply (run_typed _ a x BOOL (set_abool v) (fun x => Bool.eqb (a_bool x) v)); auto; try discriminate.
    - intros z E. apply Bool.eqb_prop in E. subst v. destruct x; reflexivity.
    - cbn [aexec]. unfold attr_set_bool. rewrite bind_assoc. step (aload_ok s Q L SM a x X). reflexivity.
  Qed.
  Lemma run_set_short : forall a v, alegal Q (ASetShort a v) -> outcome (ASetShort a v) s (fst (qmeans (ASetShort a v) Q)) (snd (qmeans (ASetShort a v) Q)).
  Proof.
    intros a v (x & X & P). cbn [qmeans]. rewrite X. apply (run_typed _ a x SHORT (set_ashort v) (fun x => a_short x =? v)%N); auto; try discriminate.
    - intros z E. apply N.eqb_eq in E. subst v. destruct x; reflexivity.
    - cbn [aexec]. unfold attr_set_short. rewrite bind_assoc. step (aload_ok s Q L SM a x X). reflexivity.
  Qed.
  Lemma run_set_int : forall a v, alegal Q (ASetInt a v) -> outcome (ASetInt a v) s (fst (qmeans (ASetInt a v) Q)) (snd (qmeans (ASetInt a v) Q)).
  Proof.
    intros a v (x & X & P). cbn [qmeans]. rewrite X. apply (run_typed _ a x INTEGER (set_aint v) (fun x => a_int x =? v)%N); auto; try discriminate.
    - intros z E. apply N.eqb_eq in E. subst v. destruct x; reflexivity.
    - cbn [aexec]. unfold attr_set_integer. rewrite bind_assoc. step (aload_ok s Q L SM a x X). reflexivity.
  Qed.
  Lemma run_get_typed : forall o a x (b : bool) r, q_at Q a = Some x ->
    aexec o s = (if b then Ok r s else Exc ATTR_WRONG_TYPE_ERR s) -> outcome o s (if b then r else RErr ATTR_WRONG_TYPE_ERR) Q.
  Proof. intros o a x b r X E. apply same_out. destruct b; [left|right]; eauto. Qed.
  Lemma run_get_bool : forall a, alegal Q (AGetBool a) -> outcome (AGetBool a) s (fst (qmeans (AGetBool a) Q)) (snd (qmeans (AGetBool a) Q)).
  Proof.
    intros a (x & X & P). cbn [qmeans]. rewrite X. apply (run_get_typed _ a x); auto. cbn [aexec]. unfold attr_get_bool. rewrite bind_assoc. step (aload_ok s Q L SM a x X).
    destruct (atype_eqb (a_type x) BOOL); reflexivity.
  Qed.
  Lemma run_get_short : forall a, alegal Q (AGetShort a) -> outcome (AGetShort a) s (fst (qmeans (AGetShort a) Q)) (snd (qmeans (AGetShort a) Q)).
  Proof.
    intros a (x & X & P). cbn [qmeans]. rewrite X. apply (run_get_typed _ a x); auto. cbn [aexec]. unfold attr_get_short. rewrite bind_assoc. step (aload_ok s Q L SM a x X).
    destruct (atype_eqb (a_type x) SHORT); reflexivity.
  Qed.
  Lemma run_get_int : forall a, alegal Q (AGetInt a) -> outcome (AGetInt a) s (fst (qmeans (AGetInt a) Q)) (snd (qmeans (AGetInt a) Q)).
  Proof.
    intros a (x & X & P). cbn [qmeans]. rewrite X. apply (run_get_typed _ a x); auto. cbn [aexec]. unfold attr_get_integer. rewrite bind_assoc. step (aload_ok s Q L SM a x X).
    destruct (atype_eqb (a_type x) INTEGER); reflexivity.
  Qed.
  Lemma run_name : forall a, alegal Q (AName a) -> outcome (AName a) s (fst (qmeans (AName a) Q)) (snd (qmeans (AName a) Q)).
  Proof.
    intros a (x & X & P). cbn [qmeans]. rewrite X. apply same_out. left. cbn [aexec fst]. unfold attr_get_name. rewrite bind_assoc. step (aload_ok s Q L SM a x X).
    assert (NN : node_name (a_prefix x, a_local x) s = Ok (qualified x) s). { unfold qualified. destruct (a_prefix x); [apply node_name_some|apply node_name_none]. }
    step NN. reflexivity.
  Qed.
  Lemma run_ref : forall a, alegal Q (ARef a) -> outcome (ARef a) s (fst (qmeans (ARef a) Q)) (snd (qmeans (ARef a) Q)).
  Proof.
    intros a (x & X & P). cbn [qmeans]. rewrite X. destruct (give_ok k s Q L SM GD BND a x X) as (s' & U & S' & _). exists s', L. split; auto. left. cbn [aexec]. step U. reflexivity.
  Qed.
  Lemma run_unref : forall a, alegal Q (AUnref a) -> outcome (AUnref a) s (fst (qmeans (AUnref a) Q)) (snd (qmeans (AUnref a) Q)).
  Proof.
    intros a (x & X & P). cbn [qmeans]. rewrite X. destruct (unref_ok s Q L a x SM X P) as (s' & U & S'). { pose proof (gd_ref _ _ GD a x X). lia. }
    exists s', L. split; [|left; cbn [aexec]; step U; reflexivity]. cbn [snd].
    destruct (a_ref x - 1 =? 0)%N eqn:Z; auto. rewrite unless_held; auto.
  Qed.
  Lemma run_create : forall j d l ns p, outcome (ACreate j d l ns p) s (fst (qmeans (ACreate j d l ns p) Q)) (snd (qmeans (ACreate j d l ns p) Q)).
  Proof.
    intros [[b sh] i] d l ns p. cbn [qmeans fst snd]. eexists. exists L. split; [|left; cbn [aexec]; unfold attr_create; unfold bind, ret; rewrite <- (sm_nat _ _ _ SM); reflexivity].
    destruct SM as [A B C D E F G I J]. constructor; auto; cbn; try congruence. intros a. rewrite B. unfold put. destruct (Nat.eqb a (q_nat Q)); auto.
  Qed.
  Lemma run_new : forall d ro qk, outcome (ANew d ro qk) s (fst (qmeans (ANew d ro qk) Q)) (snd (qmeans (ANew d ro qk) Q)).
  Proof.
    intros d ro qk. cbn [qmeans fst snd].
    assert (NN : q_el Q (q_nel Q) = None). { destruct (q_el Q (q_nel Q)) as [y|] eqn:Y; auto. apply (gd_eb _ _ GD) in Y. lia. }
    eexists. exists L. split; [|left; cbn [aexec]; unfold new_element; unfold bind, ret; rewrite <- (sm_nel _ _ _ SM); reflexivity].
    destruct SM as [A B C D E F G I J]. constructor; auto; cbn; try congruence; rewrite ?A.
    - intros e. unfold put. destruct (Nat.eqb e (q_nel Q)) eqn:Z; auto. apply Nat.eqb_eq in Z. subst e. cbn. rewrite J; auto.
    - intros e y. unfold put. destruct (Nat.eqb e (q_nel Q)) eqn:Z; auto. apply Nat.eqb_eq in Z. subst e. intros W; inversion W; subst. cbn. rewrite J; auto.
    - intros e. unfold put. destruct (Nat.eqb e (q_nel Q)) eqn:Z; [discriminate|auto].
  Qed.
End Run2.

(** ** Writing *)
Section Run3.
  Variables (k : nat) (s : ast) (Q : attrs) (L : nat -> list nat).
  Hypotheses (SM : sim s Q L) (GD : good k Q) (BND : (N.of_nat k < 4294967290)%N).

  Lemma name_ok : forall n, a_name n -> validate_attribute_name (Some n) s = Ok (attribute_name_ok n) s.
  Proof.
    intros n (cs & T & ->). unfold attribute_name_ok.
    destruct (validate_attribute_name_ok cs s T) as (b & U & B). destruct (validate_attribute_name_ok cs tt T) as (b' & U' & B').
    rewrite U, U'. destruct b, b'; auto; [destruct B' as [_ B']; assert (false = true) by (apply B'; apply B; auto)|destruct B as [_ B]; assert (false = true) by (apply B; apply B'; auto)]; discriminate.
  Qed.

  Lemma fresh_at : q_at Q (q_nat Q) = None.
  Proof. destruct (q_at Q (q_nat Q)) as [x|] eqn:X; auto. apply (gd_ab _ _ GD) in X. lia. Qed.

  Lemma entry_in : forall ns n l z, entry ns n l = Some z -> In z l.
  Proof. intros ns n l z E. apply find_some in E. tauto. Qed.

  Lemma run_set : forall j e ns n v, alegal Q (ASet j e ns n v) -> outcome (ASet j e ns n v) s (fst (qmeans (ASet j e ns n v) Q)) (snd (qmeans (ASet j e ns n v) Q)).
  Proof.
    intros [[b sh] i] e ns n v [H NM]. destruct (el_some Q e H) as [y Y]. cbn [qmeans]. rewrite Y.
    assert (P0 : forall f : unit -> M ast aout, bind (set_attr (b, sh, i) e ns n v) f s =
       bind (if negb (attribute_name_ok n) then raise INVALID_CHARACTER_ERR else
             x <- eload e ;;
    if e_ro x then raise NO_MODIFICATION_ALLOWED_ERR
    else
      m <- find_by_name (e_head x) ns n ;;
      match m with
      | Some i =>
          y <- lload i ;;
          old <- attr_get_value (l_attr y) ;;
          attr_set_value (l_attr y) v
      | None =>
          a <- attr_create (b, sh, i) (e_doc x) n ns None ;;
          aupd a (set_aparent (Some e)) ;;;
          r <- try (attr_set_value a v) ;;
          match r with
          | inr ex => aupd a (set_aparent None) ;;; attr_unref a ;;; raise ex
          | inl _ =>
              i <- node_create a e n ns ;;
              link e i ;;;
              attr_unref a
          end
      end) f s).
    { intros f. unfold set_attr. rewrite bind_assoc. step (name_ok n NM). reflexivity. }
    destruct (attribute_name_ok n); cbn [negb] in *.
    2:{ apply (same_out s Q L SM). right. exists INVALID_CHARACTER_ERR. split; auto. cbn [aexec]. rewrite P0. reflexivity. }
    cbn [aexec] in *.
    assert (P1 : aexec (ASet (b, sh, i) e ns n v) s = bind (if q_ro y then raise NO_MODIFICATION_ALLOWED_ERR
    else
      m <- find_by_name (hd_error (L e)) ns n ;;
      match m with
      | Some i =>
          y <- lload i ;;
          old <- attr_get_value (l_attr y) ;;
          attr_set_value (l_attr y) v
      | None =>
          a <- attr_create (b, sh, i) (q_doc y) n ns None ;;
          aupd a (set_aparent (Some e)) ;;;
          r <- try (attr_set_value a v) ;;
          match r with
          | inr ex => aupd a (set_aparent None) ;;; attr_unref a ;;; raise ex
          | inl _ =>
              i <- node_create a e n ns ;;
              link e i ;;;
              attr_unref a
          end
      end) (fun _ => ret RDone) s).
    { cbn [aexec]. rewrite P0. rewrite bind_assoc. step (eload_ok s Q L SM e y Y). reflexivity. }
    clear P0. destruct (q_ro y).
    { apply (same_out s Q L SM). right. eexists. split; [reflexivity|]. rewrite P1. reflexivity. }
    destruct (find_ok s Q L SM e y ns n Y) as [F1 F2]. destruct (entry ns n (q_ents y)) as [z|] eqn:E.
    - destruct (F2 z eq_refl) as (l1 & c & l2 & m1 & m2 & EL & EN & LN & LC & FD).
      destruct (gd_ent _ _ GD e y z Y (entry_in _ _ _ _ E)) as (x & X & PX & NX). rewrite X.
      rewrite bind_assoc in P1. rewrite (rbind_ok _ _ _ _ _ _ _ _ FD) in P1. assert (LL : lload c s = Ok z s) by (unfold lload; rewrite LC; auto).
      rewrite bind_assoc in P1. rewrite (rbind_ok _ _ _ _ _ _ _ _ LL) in P1.
      destruct (get_value_ok s Q L (l_attr z) x SM X (gd_ok _ _ GD _ _ X)) as (s1 & U1 & S1 & _).
      rewrite bind_assoc in P1. rewrite (rbind_ok _ _ _ _ _ _ _ _ U1) in P1.
      pose proof (set_value_ok s1 Q L (l_attr z) x v S1 X) as W. unfold retype.
      assert (OE : owned_el Q x) by (exists e, y; auto). specialize (W OE).
      destruct (writes x v) as [x'|ex]; cbn [fst snd].
      + destruct W as (s' & U & S' & _). exists s', L. split; auto. left. rewrite P1. step U. reflexivity.
      + destruct W as (s' & U & S'). exists s', L. split; auto. right. exists ex. split; auto. rewrite P1. apply bind_exc; auto.
    - cbv zeta. rewrite bind_assoc in P1. rewrite (rbind_ok _ _ _ _ _ _ _ _ (F1 eq_refl)) in P1. rewrite bind_assoc in P1.
      set (a := q_nat Q) in *. set (x0 := mkAttr n ns None (q_doc y) None [] UNSET b sh i false 1) in *.
      set (Q0 := mkAttrs (q_el Q) (put (q_at Q) a (Some x0)) (q_nel Q) (S a)).
      assert (C0 : exists s0, attr_create (b, sh, i) (q_doc y) n ns None s = Ok a s0 /\ sim s0 Q0 L).
      { unfold attr_create. rewrite (sm_nat _ _ _ SM). eexists. split; [reflexivity|].
        destruct SM as [A B C D E' F G I J]. constructor; auto; cbn; try congruence. intros a'. unfold put. fold a. destruct (Nat.eqb a' a); auto. }
      destruct C0 as (s0 & U0 & S0). rewrite (rbind_ok _ _ _ _ _ _ _ _ U0), bind_assoc in P1.
      assert (X0 : q_at Q0 a = Some x0) by (cbn; apply put_same).
      destruct (aupd_ok s0 Q0 L a x0 (set_aparent (Some e)) S0 X0) as (s1 & U1 & S1 & _). rewrite (rbind_ok _ _ _ _ _ _ _ _ U1), bind_assoc in P1.
      set (Q1 := put_at Q0 a (Some (set_aparent (Some e) x0))) in *.
      assert (X1 : q_at Q1 a = Some (set_aparent (Some e) x0)) by (cbn; apply put_same).
      pose proof (set_value_ok s1 Q1 L a _ v S1 X1) as W. cbn [writes set_aparent a_ro a_type x0] in W.
      destruct W as (s2 & U2 & S2 & _). { exists e, y. auto. }
      rewrite (rbind_ok _ _ _ _ _ _ _ _ (try_ok _ _ _ _ _ _ U2)), bind_assoc in P1.
      set (x2 := set_kids [v] (set_type STRING (set_aparent (Some e) x0))) in *.
      assert (X2 : q_at (put_at Q1 a (Some x2)) a = Some x2) by (cbn; apply put_same).
      destruct (node_create_ok s2 _ L e y a x2 ns n S2 Y X2) as (s3 & U3 & S3 & LC & RC & NC & FR). { right. exists v. auto. }
      rewrite (rbind_ok _ _ _ _ _ _ _ _ U3), bind_assoc in P1. 
      set (Q3 := put_el (put_at Q1 a (Some x2)) e (qcls y (if is_class ns n then class_split (c_string (value x2)) [] else q_cls y))) in *.
      destruct (link_ok s3 Q3 L e (qcls y (if is_class ns n then class_split (c_string (value x2)) [] else q_cls y)) (as_nln s2) (mkLnode a n ns) S3) as (s4 & U4 & S4 & _); auto.
      { cbn. apply put_same. } { lia. }
      rewrite (rbind_ok _ _ _ _ _ _ _ _ U4) in P1.
      destruct (unref_ok s4 _ _ a x2 S4) as (s5 & U5 & S5). { cbn. apply put_same. } { reflexivity. } { reflexivity. }
      rewrite (rbind_ok _ _ _ _ _ _ _ _ U5) in P1. exists s5. eexists. split; [|left; rewrite P1; reflexivity].
      eapply sim_ext; [exact S5|..]; auto.
      + cbn [snd gain put_at put_el q_el]. intros e'. unfold Q3, Q1, Q0. cbn [q_el put_at put_el]. unfold put. destruct (Nat.eqb e' e); auto.
      + cbn [snd gain put_at put_el q_at]. intros e'. unfold Q3, Q1, Q0. cbn [q_at put_at put_el]. unfold put. destruct (Nat.eqb e' a); auto.
  Qed.
End Run3.

Lemma drop_ref : forall Q e y n x r b, q_at (drop Q e y n x) b = q_at (drop (put_at Q (l_attr n) r) e y n x) b.
Proof. intros. cbn. unfold put. destruct (Nat.eqb b (l_attr n)); auto. Qed.

Lemma held_drop : forall x, unless_free (set_aparent None (set_aref (a_ref x + 1) x)) = Some (set_aparent None (set_aref (a_ref x + 1) x)).
Proof. intros x. apply unless_held. destruct x; simpl. lia. Qed.
Lemma attr_ok_same : forall x x', a_kids x' = a_kids x -> a_type x' = a_type x -> attr_ok x -> attr_ok x'.
Proof. intros x x' E1 E2 [H|(v & H1 & H2)]; [left|right; exists v]; rewrite ?E1, ?E2; auto. Qed.

Section Run4.
  Variables (k : nat) (s : ast) (Q : attrs) (L : nat -> list nat).
  Hypotheses (SM : sim s Q L) (GD : good k Q) (BND : (N.of_nat k < 4294967290)%N).

  (** The first half of the three calls that take an attribute from its element:
      one more reference, out of the list, read once more. *)
  Definition taken (n : lnode) (e : nat) (y : qel) (x : attr) : attrs := drop Q e y n (set_aref (a_ref x + 1) x).
  Lemma take_ok : forall e y l1 c l2 m1 z m2 x (m : M ast unit), q_el Q e = Some y -> L e = l1 ++ c :: l2 -> q_ents y = m1 ++ z :: m2 -> length l1 = length m1 ->
    as_ln s c = Some z -> q_at Q (l_attr z) = Some x -> a_parent x = Some e ->
    (m = unlink e c \/ (m = on_ring (list_del c) /\ l1 <> [])) ->
    exists s', (forall B (f : bytes -> M ast B), bind (attr_ref (l_attr z)) (fun _ => bind m (fun _ => bind (node_destroy c) (fun _ => bind (attr_get_value (l_attr z)) f))) s =
                 f (value x) s') /\ sim s' (taken z e y x) (repl L e (l1 ++ l2)) /\ as_nln s' = as_nln s.
  Proof.
    intros e y l1 c l2 m1 z m2 x m Y EL EN LN LC X PX WHICH.
    destruct (give_ok k s Q L SM GD BND (l_attr z) x X) as (s1 & U1 & S1 & R1 & R2 & R3).
    set (x1 := set_aref (a_ref x + 1) x) in *. set (Q1 := put_at Q (l_attr z) (Some x1)) in *.
    assert (X1 : q_at Q1 (l_attr z) = Some x1) by (cbn; apply put_same).
    assert (CP : cut_post s1 Q1 L e y l1 c l2 m1 m2 m).
    { destruct WHICH as [->|[-> NE]]; [eapply unlink_cut; eauto|eapply del_cut; eauto]. }
    destruct (drop_ok m s1 Q1 L e y l1 c l2 m1 z m2 x1 S1 Y EN) as (s2 & s3 & U2 & U3 & S3 & N3); auto.
    { apply (gd_nd _ _ GD e y Y). } { congruence. }
    assert (S3' : sim s3 (taken z e y x) (repl L e (l1 ++ l2))).
    { eapply sim_ext; [exact S3|..]; auto. intros b. unfold taken, Q1. apply drop_ref. }
    destruct (get_value_ok s3 _ _ (l_attr z) (set_aparent None x1) S3') as (s4 & U4 & S4 & _ & _ & N4).
    { unfold taken, drop. cbn [put_at q_at]. rewrite put_same. apply held_drop. }
    { apply (attr_ok_same x); auto. apply (gd_ok _ _ GD _ _ X). }
    exists s4. split; [|split; [auto|congruence]]. intros B f. step U1. step U2. step U3. step U4. reflexivity.
  Qed.

  Lemma run_remove : forall e ns n, alegal Q (ARemove e ns n) -> outcome (ARemove e ns n) s (fst (qmeans (ARemove e ns n) Q)) (snd (qmeans (ARemove e ns n) Q)).
  Proof.
    intros e ns n H. destruct (el_some Q e H) as [y Y]. cbn [qmeans]. rewrite Y. destruct (find_ok s Q L SM e y ns n Y) as [F1 F2].
    assert (P1 : aexec (ARemove e ns n) s = bind (if q_ro y then raise NO_MODIFICATION_ALLOWED_ERR else
      m <- find_by_name (hd_error (L e)) ns n ;;
    match m with
    | None => ret tt
    | Some i =>
        y <- lload i ;;
        attr_ref (l_attr y) ;;;
        unlink e i ;;;
        node_destroy i ;;;
        attr_get_value (l_attr y) ;;;
        attr_unref (l_attr y)
    end) (fun _ => ret RDone) s).
    { cbn [aexec]. unfold remove_attr. rewrite bind_assoc. step (eload_ok s Q L SM e y Y). reflexivity. }
    destruct (q_ro y) eqn:RO.
    { apply (same_out s Q L SM). right. eexists. split; [reflexivity|]. rewrite P1. reflexivity. }
    rewrite bind_assoc in P1. destruct (entry ns n (q_ents y)) as [z|] eqn:E.
    - destruct (F2 z eq_refl) as (l1 & c & l2 & m1 & m2 & EL & EN & LN & LC & FD).
      destruct (gd_ent _ _ GD e y z Y (entry_in _ _ _ _ E)) as (x & X & PX & NX). rewrite X. cbn [fst snd].
      rewrite (rbind_ok _ _ _ _ _ _ _ _ FD) in P1. assert (LL : lload c s = Ok z s) by (unfold lload; rewrite LC; auto).
      rewrite bind_assoc in P1. rewrite (rbind_ok _ _ _ _ _ _ _ _ LL) in P1.
      destruct (take_ok e y l1 c l2 m1 z m2 x (unlink e c) Y EL EN LN LC X PX (or_introl eq_refl)) as (s1 & U1 & S1 & N1).
      set (x1 := set_aparent None (set_aref (a_ref x + 1) x)).
      assert (X1 : q_at (taken z e y x) (l_attr z) = Some x1). { unfold taken, drop. cbn [put_at q_at]. rewrite put_same. apply held_drop. }
      destruct (unref_ok s1 _ _ (l_attr z) x1 S1 X1) as (s2 & U2 & S2). { destruct x; simpl; lia. } { pose proof (gd_ref _ _ GD _ x X). destruct x; simpl in *; lia. }
      exists s2. eexists. split.
      2:{ left. rewrite P1. unfold bind at 1. pose proof (U1 unit (fun _ => attr_unref (l_attr z))) as U1'. cbv beta in U1'. rewrite U1'. rewrite U2. reflexivity. }
      eapply sim_ext; [exact S2|..]; auto. intros b. unfold taken, drop. cbn [put_at q_at]. unfold put. destruct (Nat.eqb b (l_attr z)); auto.
      assert (A1 : a_ref x1 = (a_ref x + 1)%N) by (destruct x; reflexivity). rewrite A1.
      replace (a_ref x + 1 - 1)%N with (a_ref x) by lia. assert (A2 : set_aref (a_ref x) x1 = set_aparent None x) by (destruct x; reflexivity). rewrite A2.
      destruct (a_ref x =? 0)%N eqn:Z; auto. rewrite unless_held; auto.
    - apply (same_out s Q L SM). left. rewrite P1. step (F1 eq_refl). reflexivity.
  Qed.

  Lemma run_remove_node : forall e ns a, alegal Q (ARemoveNode e ns a) -> outcome (ARemoveNode e ns a) s (fst (qmeans (ARemoveNode e ns a) Q)) (snd (qmeans (ARemoveNode e ns a) Q)).
  Proof.
    intros e ns a [H (x & X & PR)]. destruct (el_some Q e H) as [y Y]. cbn [qmeans]. rewrite Y, X. cbv zeta.
    set (q := qualified x).
    destruct (find_ok s Q L SM e y ns q Y) as [F1 F2].
    assert (P1 : aexec (ARemoveNode e ns a) s = bind (if q_ro y then raise NO_MODIFICATION_ALLOWED_ERR else
      m <- find_by_name (hd_error (L e)) ns q ;;
    match m with
    | None => raise NOT_FOUND_ERR
    | Some i =>
        z <- lload i ;;
        if negb (Nat.eqb (l_attr z) a) then raise NOT_FOUND_ERR
        else
          attr_ref a ;;;
          unlink e i ;;;
          node_destroy i ;;;
          attr_get_value a ;;;
          ret a
    end) (fun r => ret (RAttr (Some r))) s).
    { cbn [aexec]. unfold remove_attr_node. rewrite bind_assoc. step (eload_ok s Q L SM e y Y). cbn [elem e_ro e_head]. destruct (q_ro y); [reflexivity|].
      rewrite bind_assoc. step (aload_ok s Q L SM a x X). rewrite bind_assoc.
      assert (NN : node_name (a_prefix x, a_local x) s = Ok q s). { unfold q, qualified. destruct (a_prefix x); [apply node_name_some|apply node_name_none]. }
      step NN. reflexivity. }
    destruct (q_ro y) eqn:RO.
    { apply (same_out s Q L SM). right. eexists. split; [reflexivity|]. rewrite P1. reflexivity. }
    rewrite bind_assoc in P1. destruct (entry ns q (q_ents y)) as [z|] eqn:E.
    - destruct (F2 z eq_refl) as (l1 & c & l2 & m1 & m2 & EL & EN & LN & LC & FD).
      rewrite (rbind_ok _ _ _ _ _ _ _ _ FD) in P1. assert (LL : lload c s = Ok z s) by (unfold lload; rewrite LC; auto).
      rewrite bind_assoc in P1. rewrite (rbind_ok _ _ _ _ _ _ _ _ LL) in P1.
      destruct (Nat.eqb (l_attr z) a) eqn:EA; cbn [negb] in P1.
      2:{ apply (same_out s Q L SM). right. eexists. split; [reflexivity|]. rewrite P1. reflexivity. }
      apply Nat.eqb_eq in EA. subst a. cbn [fst snd].
      destruct (gd_ent _ _ GD e y z Y (entry_in _ _ _ _ E)) as (x' & X' & PX & NX). assert (x' = x) by congruence; subst x'.
      destruct (take_ok e y l1 c l2 m1 z m2 x (unlink e c) Y EL EN LN LC X PX (or_introl eq_refl)) as (s1 & U1 & S1 & N1).
      exists s1. eexists. split; [exact S1|]. left. rewrite P1. unfold bind at 1. pose proof (U1 nat (fun _ => ret (l_attr z))) as U1'. cbv beta in U1'. rewrite U1'. reflexivity.
    - apply (same_out s Q L SM). right. eexists. split; [reflexivity|]. rewrite P1. step (F1 eq_refl). reflexivity.
  Qed.

  (** The second half of setAttributeNode. *)
  Lemma put_node_ok : forall s1 Q1 L1 e y1 a x1 ns nm B (old : B), sim s1 Q1 L1 -> q_el Q1 e = Some y1 -> q_at Q1 a = Some x1 -> attr_ok x1 ->
    exists s' L', bind (node_create a e nm ns) (fun n => bind (aupd a (set_aparent (Some e))) (fun _ => bind (attr_get_value a) (fun _ => bind (link e n) (fun _ => ret old)))) s1 = Ok old s' /\
      sim s' (gain Q1 e y1 a ns nm x1) L'.
  Proof.
    intros s1 Q1 L1 e y1 a x1 ns nm B old S1 Y1 X1 OK.
    destruct (node_create_ok s1 Q1 L1 e y1 a x1 ns nm S1 Y1 X1 OK) as (s2 & U2 & S2 & LC & RC & NC & FR). step U2.
    set (y2 := qcls y1 (if is_class ns nm then class_split (c_string (value x1)) [] else q_cls y1)) in *.
    destruct (aupd_ok s2 (put_el Q1 e y2) L1 a x1 (set_aparent (Some e)) S2 X1) as (s3 & U3 & S3 & R1 & R2 & R3). step U3.
    destruct (get_value_ok s3 _ L1 a (set_aparent (Some e) x1) S3) as (s4 & U4 & S4 & T1 & T2 & T3). { cbn. apply put_same. } { apply (attr_ok_same x1); auto. } step U4.
    destruct (link_ok s4 _ L1 e y2 (as_nln s1) (mkLnode a nm ns) S4) as (s5 & U5 & S5 & _); auto; try congruence; try lia. { cbn. apply put_same. } step U5.
    exists s5. eexists. split; [reflexivity|]. eapply sim_ext; [exact S5|..]; auto.
    intros e'. unfold gain. cbn [put_at put_el q_el]. unfold put. destruct (Nat.eqb e' e); auto.
  Qed.

  Lemma run_set_node : forall e ns a, alegal Q (ASetNode e ns a) -> outcome (ASetNode e ns a) s (fst (qmeans (ASetNode e ns a) Q)) (snd (qmeans (ASetNode e ns a) Q)).
  Proof.
    intros e ns a (H & (x & X & PR) & NF & NL). destruct (el_some Q e H) as [y Y]. cbn [qmeans]. rewrite Y, X. specialize (NF y x). specialize (NL y x).
    destruct (find_ok s Q L SM e y ns (a_local x) Y) as [F1 F2].
    assert (P1 : aexec (ASetNode e ns a) s = bind (
      if negb (Nat.eqb (q_doc y) (a_doc x)) then raise WRONG_DOCUMENT_ERR
  else if q_ro y then raise NO_MODIFICATION_ALLOWED_ERR
  else if negb (match a_parent x with None => true | Some p => Nat.eqb p e end) then raise INUSE_ATTRIBUTE_ERR
  else
    m <- find_by_name (hd_error (L e)) ns (a_local x) ;;
    old <- (match m with
            | None => ret None
            | Some i =>
                z <- lload i ;;
                attr_ref (l_attr z) ;;;
                on_ring (list_del i) ;;;
                node_destroy i ;;;
                attr_get_value (l_attr z) ;;;
                ret (Some (l_attr z))
            end) ;;
    n <- node_create a e (a_local x) ns ;;
    aupd a (set_aparent (Some e)) ;;;
    attr_get_value a ;;;
    link e n ;;;
    ret old) (fun r => ret (RAttr r)) s).
    { cbn [aexec]. unfold set_attr_node. rewrite bind_assoc. step (eload_ok s Q L SM e y Y). rewrite bind_assoc. step (aload_ok s Q L SM a x X). reflexivity. }
    destruct (negb (Nat.eqb (q_doc y) (a_doc x))).
    { apply (same_out s Q L SM). right. eexists. split; [reflexivity|]. rewrite P1. reflexivity. }
    destruct (q_ro y) eqn:RO.
    { apply (same_out s Q L SM). right. eexists. split; [reflexivity|]. rewrite P1. reflexivity. }
    destruct (negb (match a_parent x with None => true | Some p => Nat.eqb p e end)) eqn:PP.
    { apply (same_out s Q L SM). right. eexists. split; [reflexivity|]. rewrite P1. reflexivity. }
    rewrite bind_assoc in P1. destruct (entry ns (a_local x) (q_ents y)) as [z|] eqn:E.
    - destruct (F2 z eq_refl) as (l1 & c & l2 & m1 & m2 & EL & EN & LN & LC & FD).
      destruct (gd_ent _ _ GD e y z Y (entry_in _ _ _ _ E)) as (x0 & X0 & PX & NX). rewrite X0. cbv zeta.
      assert (L1 : l1 <> []). { intros ->. destruct m1; [|discriminate]. apply (NF z Y X eq_refl). rewrite EN. reflexivity. }
      destruct (take_ok e y l1 c l2 m1 z m2 x0 (on_ring (list_del c)) Y EL EN LN LC X0 PX (or_intror (conj eq_refl L1))) as (s1 & U1 & S1 & N1).
      fold (taken z e y x0).
      set (y1 := mkQel (q_doc y) (q_ro y) (q_quirks y) (without_attr (l_attr z) (q_ents y)) (if is_class (l_ns z) (l_name z) then [] else q_cls y)).
      assert (Y1 : q_el (taken z e y x0) e = Some y1). { unfold taken, drop. cbn [put_at put_el q_el]. rewrite put_same. reflexivity. }
      assert (X1 : exists x1, q_at (taken z e y x0) a = Some x1 /\ attr_ok x1).
      { unfold taken, drop. cbn [put_at put_el q_at]. destruct (put_cases _ (q_at Q) (l_attr z) (unless_free (set_aparent None (set_aref (a_ref x0 + 1) x0))) a) as [[-> P]|[NE P]]; rewrite P.
        - rewrite held_drop. eexists. split; [reflexivity|]. apply (attr_ok_same x0); auto. apply (gd_ok _ _ GD _ _ X0).
        - exists x. split; auto. apply (gd_ok _ _ GD _ _ X). }
      destruct X1 as (x1 & X1 & OK1). rewrite Y1, X1. cbn [fst snd].
      destruct (put_node_ok s1 _ _ e y1 a x1 ns (a_local x) (option nat) (Some (l_attr z)) S1 Y1 X1 OK1) as (s2 & L2 & U2 & S2).
      exists s2, L2. split; auto. left. rewrite P1. step FD. rewrite bind_assoc. assert (LL : lload c s = Ok z s) by (unfold lload; rewrite LC; auto).
      rewrite bind_assoc. step LL.
      pose proof (U1 (option nat) (fun _ => ret (Some (l_attr z)))) as U1'. cbv beta in U1'.
      unfold bind at 1. rewrite U1'. cbn [ret]. unfold bind at 1. rewrite U2. reflexivity.
    - cbn [fst snd].
      destruct (put_node_ok s Q L e y a x ns (a_local x) (option nat) None SM Y X (gd_ok _ _ GD _ _ X)) as (s2 & L2 & U2 & S2).
      exists s2, L2. split; auto. left. rewrite P1. step (F1 eq_refl). rewrite bind_assoc. rewrite bind_ret. unfold bind at 1. rewrite U2. reflexivity.
  Qed.

  Theorem run_ok : forall o, alegal Q o -> outcome o s (fst (qmeans o Q)) (snd (qmeans o Q)).
  Proof.
    intros o H. destruct o.
    - eapply run_new; eauto. - eapply run_set; eauto. - eapply run_get; eauto. - eapply run_has; eauto. - apply run_remove; auto.
    - eapply run_length; eauto. - eapply run_item; eauto. - eapply run_class; eauto. - eapply run_node; eauto. - apply run_set_node; auto.
    - apply run_remove_node; auto. - eapply run_create; eauto. - eapply run_value; eauto. - eapply run_set_value; eauto.
    - eapply run_get_bool; eauto. - eapply run_set_bool; eauto. - eapply run_get_short; eauto. - eapply run_set_short; eauto.
    - eapply run_get_int; eauto. - eapply run_set_int; eauto. - eapply run_ref; eauto. - eapply run_unref; eauto. - eapply run_name; eauto.
  Qed.
End Run4.
