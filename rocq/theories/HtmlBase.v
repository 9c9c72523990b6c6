(** Collections made within a call: what they count and answer. *)
From Coq Require Import List Arith NArith ZArith Bool Lia ZifyBool ZifyNat ZifyN.
From Verif Require Import Base HeapModel HeapSpec HeapInv HeapExec HeapTree HeapInsert HeapFrame HeapCreate HeapOps HeapUnref HistModel HistProofs TreeSpec TreeProofs
  WalkModel WalkSpec WalkProofs WalkLists WalkFinds WalkReach HtmlModel HtmlSpec.
Import ListNotations.
Local Open Scope dom_scope.

Lemma order_like : forall h h', like h h' -> forall i l, order h i l -> order h' i l.
Proof.
  intros h h' K. fix IH 3. intros i l O. destruct O as [j m ls C F]. apply (order_node _ j m ls); [eapply like_children; eauto|].
  clear C. revert m ls F. fix IH2 3. intros l ls F. destruct F as [|x y l ls O F]; constructor; [apply IH; exact O|apply IH2; exact F].
Qed.
Lemma ext_like : forall h h' : heap, (forall j, h' j = h j) -> like h h'.
Proof. intros h h' E j. rewrite E. reflexivity. Qed.

Lemma same_refl : forall s, same_state s s.
Proof. intros s. split; [|split]; auto. Qed.
Lemma same_trans : forall a b c, same_state a b -> same_state b c -> same_state a c.
Proof. intros a b c (A1 & A2 & A3) (B1 & B2 & B3). split; [congruence|]. split; [congruence|]. intros j. rewrite B3. apply A3. Qed.
Lemma same_sym : forall a b, same_state a b -> same_state b a.
Proof. intros a b (A1 & A2 & A3). split; [congruence|]. split; [congruence|]. intros j. symmetry. apply A3. Qed.
Lemma same_wf : forall s s' ch, same_state s s' -> wf s ch -> wf s' ch.
Proof.
  intros s s' ch (_ & A2 & A3) (WL & WT & WO & WR). destruct (wf_heap_ext _ _ _ A3 WT WO WR) as (B1 & B2 & B3).
  split; [|auto]. intros j n H. rewrite A3 in H. rewrite A2. eauto.
Qed.

Lemma picks_iff : forall A (P Q : A -> Prop) l k, (forall x, P x <-> Q x) -> picks P l k -> picks Q l k.
Proof. intros A P Q l k E X. induction X; [constructor|apply picks_yes; auto; apply E; auto|apply picks_no; auto; intros Y; apply E in Y; auto]. Qed.
Lemma picks_in : forall A (P : A -> Prop) l k, picks P l k -> forall x, In x k -> In x l /\ P x.
Proof. intros A P l k X. induction X; intros y I; [contradiction| |]. - destruct I as [<-|I]; [split; [left|]; auto|]. destruct (IHX _ I). split; [right|]; auto.
  - destruct (IHX _ I). split; [right|]; auto. Qed.
Lemma picks_length : forall A (P : A -> Prop) l k, picks P l k -> length k <= length l.
Proof. intros A P l k X. induction X; simpl; lia. Qed.
Lemma picks_sub : forall A (P : A -> Prop) l k, picks P l k -> NoDup l -> NoDup k.
Proof.
  intros A P l k X. induction X; intros ND; auto; inversion ND; subst; auto. constructor; auto.
  intros I. destruct (picks_in _ _ _ _ X _ I). contradiction.
Qed.

(** Room in every reference count for the references a call takes. *)
Definition roomy (s : st) : Prop := forall i n, s_heap s i = Some n -> (n_ref n + 8 < two32)%N.
Lemma roomy_counted : forall s, roomy s -> counted s.
Proof. intros s R i n H. pose proof (R _ _ H). lia. Qed.
Lemma same_roomy : forall s s', same_state s s' -> roomy s -> roomy s'.
Proof. intros s s' (_ & _ & E) R i n H. rewrite E in H. eauto. Qed.
Lemma reach_roomy : forall k s g, reach k s g -> briefly k -> (exists ch, wf s ch) /\ roomy s /\ agrees k s g.
Proof.
  intros k s g R B. assert (SH : short k) by (unfold short, briefly, two32 in *; lia). destruct (reach_good _ _ _ R SH) as [W AG]. split; auto. split; auto.
  intros i n H. pose proof (ag_ref _ _ _ AG _ _ H). pose proof (ag_bound _ _ _ AG i). unfold briefly in B. lia.
Qed.

Lemma has_tag_iff : forall c name n, name <> [] -> name <> [42%N] -> (element_node n && eq_of c (n_name n) (Some name) = true <-> has_tag c name n).
Proof.
  intros c name n NE NS. rewrite andb_true_iff, element_iff, eq_of_iff. unfold has_tag. cbn [no_null].
  split.
  - intros [A B]. split; auto. right. destruct (n_name n) as [b|]; [exists b; auto|]. exfalso. apply NE. cbn [no_null] in B.
    destruct name; auto. unfold fold_case in B. destruct c; discriminate.
  - intros [A [B|(b & B & C)]]; [contradiction|]. split; auto. rewrite B. exact C.
Qed.

Section Collections.
  Variables (s : st) (c : bool) (name : bytes) (e : id).
  Hypothesis L : linked s.
  Hypothesis CT : counted s.
  Hypothesis NE : name <> [].
  Hypothesis NS : name <> [42%N].
  Hypothesis FI : filled (s_heap s) e.
  Let h := s_heap s.

  Lemma html_doc_ok : exists d, html_doc e s = Ok d s /\ owner_of (s_heap s) e = Some d /\ live (s_heap s) d.
  Proof.
    destruct FI as (n & H & T & _). destruct (ln_owner _ L _ _ H) as (d & D); [congruence|]. pose proof (ln_element _ L _ _ _ H T D) as LD.
    exists d. split; [|split; auto; unfold owner_of; rewrite H; exact D]. unfold html_doc. rewrite (bind_ok _ _ _ _ _ _ _ _ (load_ok _ _ _ H)). rewrite D.
    destruct LD as (nd & LD). rewrite (bind_ok _ _ _ _ _ _ _ _ (load_ok _ _ _ LD)). reflexivity.
  Qed.

  Variable k : list id.
  Hypothesis LS : listed c name h e k.

  Lemma in_list : col_length (tagged_as (eq_of c) name s) e s = Ok (N.of_nat (length k)) s /\
    (forall index, (index + 1 < two32)%N -> exists s',
       col_item (tagged_as (eq_of c) name s) e index s = Ok (nth_error k (N.to_nat index)) s' /\ answered s (nth_error k (N.to_nat index)) s').
  Proof.
    destruct LS as (l & O & B & P).
    destruct (collection_list s L CT (tagged_as (eq_of c) name s) e) with (l := l) (k := k) as (A1 & A2 & _); auto.
    - destruct FI as (n & H & _ & D). exists n. auto.
    - unfold two32. lia.
    - eapply picks_iff; [|exact P]. intros i. unfold tagged_as, type_of. fold h. destruct (h i) as [n|] eqn:H.
      + cbn [option_map]. pose proof (has_tag_iff c name n NE NS) as Q. rewrite andb_true_iff, element_iff in Q. split.
        * intros (m & M & T). assert (m = n) by congruence. subst m. apply Q in T. destruct T as [T1 T2]. split; [congruence|exact T2].
        * intros [T X]. exists n. split; auto. apply Q. split; [congruence|exact X].
      + split; [intros (m & M & _); discriminate|intros [X _]; discriminate].
  Qed.
  Lemma count_ok : count_in (eq_of c) name e s = Ok (N.of_nat (length k)) s.
  Proof. destruct html_doc_ok as (d & D & _). unfold count_in. rewrite (bind_ok _ _ _ _ _ _ _ _ D). apply in_list. Qed.
  Lemma item_ok : forall index, (index + 1 < two32)%N -> exists s',
    item_in (eq_of c) name e index s = Ok (nth_error k (N.to_nat index)) s' /\ answered s (nth_error k (N.to_nat index)) s'.
  Proof.
    intros index I. destruct (proj2 in_list index I) as (s' & A & B). exists s'. split; auto. destruct html_doc_ok as (d & D & _).
    unfold item_in. rewrite (bind_ok _ _ _ _ _ _ _ _ D). exact A.
  Qed.
  Lemma list_bound : (N.of_nat (length k) < 2147483648)%N.
  Proof. destruct LS as (l & O & B & P). pose proof (picks_length _ _ _ _ P). lia. Qed.
  Lemma listed_tag : forall x, In x k -> exists n, h x = Some n /\ has_tag c name n /\ anc h e x.
  Proof.
    intros x I. destruct LS as (l & O & B & P). destruct (picks_in _ _ _ _ P _ I) as [A (n & H & T)]. exists n. split; auto. split; auto.
    assert (LE : live h e) by (destruct FI as (m & M & _); exists m; auto).
    destruct (linked_tree s L e LE) as (t & R & E). rewrite <- E. eapply tr_anc; eauto. rewrite <- (order_pre _ _ R l); [auto|]. rewrite E. exact O.
  Qed.
  Lemma listed_nodup : NoDup k.
  Proof.
    destruct LS as (l & O & B & P). eapply picks_sub; eauto.
    assert (LE : live h e) by (destruct FI as (m & M & _); exists m; auto).
    destruct (linked_tree s L e LE) as (t & R & E). rewrite (order_pre _ _ R l); [apply (tr_nodup s L); auto|]. rewrite E. exact O.
  Qed.
End Collections.

Lemma as_i32_small : forall m, (N.of_nat m < 2147483648)%N -> as_i32 (N.of_nat m) = Z.of_nat m.
Proof.
  intros m B. unfold as_i32. assert (U : u32 (N.of_nat m) = N.of_nat m) by (unfold u32, two32; apply N.mod_small; lia). rewrite U.
  destruct (Z.ltb_spec (Z.of_N (N.of_nat m)) 2147483648); lia.
Qed.
Lemma as_u32_small : forall z, (0 <= z < 4294967296)%Z -> as_u32 z = Z.to_N z.
Proof. intros z B. unfold as_u32. rewrite Z.mod_small; auto. Qed.

Lemma oid_refl : forall x, oid_eqb (Some x) (Some x) = true.
Proof. intros x. apply oid_eqb_eq. reflexivity. Qed.
Lemma oid_other : forall x j, j <> x -> oid_eqb (Some x) (Some j) = false.
Proof. intros x j N. apply oid_eqb_neq. congruence. Qed.

(** ** Giving back the reference an item came with *)
Lemma answered_wf : forall s s' ch x n, wf s ch -> answered s (Some x) s' -> s_heap s x = Some n -> (n_ref n + 8 < two32)%N -> wf s' ch /\ s_heap s' x = Some (set_ref (n_ref n + 1) n).
Proof.
  intros s s' ch x n W (A1 & A2 & A3) H B. assert (NW : no_wrap n) by (unfold no_wrap; lia).
  assert (SM : same_state (withh s (hmod (s_heap s) x ref_up)) s').
  { split; [exact A1|]. split; [exact A2|]. intros j. rewrite A3. cbn [withh s_heap]. unfold hmod.
    destruct (Nat.eqb_spec j x) as [->|NJ].
    - rewrite H, oid_refl. cbn [option_map]. f_equal. unfold ref_up. f_equal. unfold u32. symmetry. apply N.mod_small. exact NW.
    - destruct (s_heap s j) as [m|]; auto. rewrite oid_other; auto. }
  split; [eapply same_wf; [exact SM|]; eapply ref_up_wf; eauto|]. rewrite A3, H, oid_refl. reflexivity.
Qed.

Lemma give_back : forall s s' ch x n, wf s ch -> answered s (Some x) s' -> s_heap s x = Some n -> n_parent n <> None -> (n_ref n + 8 < two32)%N ->
  exists s'', node_unref x s' = Ok tt s'' /\ same_state s s''.
Proof.
  intros s s' ch x n W A H P B. destruct (answered_wf _ _ _ _ _ W A H B) as [W' H']. destruct A as (A1 & A2 & A3).
  destruct (unref_spec s' ch x _ W' H') as (h' & ch' & E & _ & Z). { cbn [n_ref set_ref]. lia. } { cbn [n_ref set_ref]. lia. }
  cbn [n_ref set_ref n_parent] in Z. destruct (n_parent n) as [p|] eqn:PP; [|congruence]. cbn [is_none negb] in Z. rewrite orb_true_r in Z.
  destruct Z as [-> _]. eexists. split; [exact E|]. split; [exact A1|]. split; [exact A2|]. intros j. cbn [withh s_heap].
  unfold hmod. rewrite A3. destruct (s_heap s j) as [m|] eqn:J; [|destruct (Nat.eqb_spec j x) as [->|]; auto; congruence].
  destruct (Nat.eqb_spec j x) as [->|NJ].
  - rewrite oid_refl. cbn [option_map]. assert (m = n) by congruence. subst m. f_equal. unfold ref_down. cbn [n_ref set_ref].
    assert (U : u32 (n_ref n + 1 + (two32 - 1)) = n_ref n). { unfold u32. replace (n_ref n + 1 + (two32 - 1))%N with (n_ref n + 1 * two32)%N by (assert (0 < two32)%N by reflexivity; lia).
      rewrite N.mod_add by (unfold two32; lia). apply N.mod_small. unfold two32 in *. lia. }
    rewrite U. destruct n; reflexivity.
  - rewrite oid_other; auto.
Qed.
