(** Rows of a table in its head, its bodies and its foot. *)
From Coq Require Import List Arith NArith ZArith Bool Lia ZifyBool ZifyNat ZifyN.
From Verif Require Import Base HeapModel HeapSpec HeapInv HeapExec HeapTree HeapFrame HeapOps HeapLoops HeapUnref HistModel HistProofs TreeSpec TreeProofs TreeProofs3
  StringModel WalkModel WalkSpec WalkProofs WalkReach ContentProofs HtmlModel HtmlSpec HtmlBase HtmlSelect HtmlTake HtmlRows HtmlTable HtmlInsert HtmlTables.
Import ListNotations.
Local Open Scope dom_scope.

(** ** The same state *)

Lemma same_children : forall s s', same_state s s' -> forall p l, children (s_heap s) p l <-> children (s_heap s') p l.
Proof. intros s s' (_ & _ & E) p l. split; apply children_links; intros j n H; exists n; rewrite ?E in *; auto. Qed.
Lemma same_order : forall s s', same_state s s' -> forall i l, order (s_heap s) i l -> order (s_heap s') i l.
Proof. intros s s' (_ & _ & E). apply order_like. apply ext_like. exact E. Qed.
Lemma same_rows : forall s s' e k, same_state s s' -> rows (s_heap s) e k -> rows (s_heap s') e k.
Proof.
  intros s s' e k SM ((ne & He & D) & NI & l & O & B & P). assert (E := SM). destruct E as (_ & _ & E). split; [|split; auto].
  - exists ne. rewrite E. auto.
  - exists l. split; [eapply same_order; eauto|]. split; auto. eapply picks_iff; [|exact P]. intros x. cbn beta. rewrite E. tauto.
Qed.
Lemma same_part : forall s s' name x, same_state s s' -> (part name (s_heap s) x <-> part name (s_heap s') x).
Proof. intros s s' name x (_ & _ & E). unfold part. rewrite E. tauto. Qed.
Lemma same_first : forall s s' name l o, same_state s s' -> first_that (part name (s_heap s)) l o -> first_that (part name (s_heap s')) l o.
Proof.
  intros s s' name l o SM F. induction F as [|x l P|x l o NP F IH]; [constructor|apply ft_here; apply (same_part s s'); auto|apply ft_next; auto].
  intros Q. apply NP. apply (same_part s s' name x SM). exact Q.
Qed.
Lemma same_body_rows : forall s s' l m, same_state s s' -> body_rows (s_heap s) l m -> body_rows (s_heap s') l m.
Proof.
  intros s s' l m SM B. induction B as [|x k l m P RW B IH|x l m NP B IH]; [constructor|apply br_body; auto|apply br_other; auto].
  - apply (same_part s s'); auto.
  - eapply same_rows; eauto.
  - intros Q. apply NP. apply (same_part s s' _ x SM). exact Q.
Qed.
Lemma same_anc : forall s s' a b, same_state s s' -> (anc (s_heap s) a b <-> anc (s_heap s') a b).
Proof. intros s s' a b (_ & _ & E). split; apply anc_parents; intros j n p H P; exists n; rewrite ?E in *; auto. Qed.
Lemma same_writable : forall s s' i, same_state s s' -> ~ read_only (s_heap s) i -> ~ read_only (s_heap s') i.
Proof.
  intros s s' i (_ & _ & E) NR (n & H & Q). apply NR. exists n. rewrite E in H. split; auto.
  assert (G : forall a b, anc (s_heap s') a b -> anc (s_heap s) a b) by (intros a b; apply anc_parents; intros j m p M P; exists m; rewrite E in M; auto).
  destruct Q as [Q|[Q|[Q|(Q & a & na & Q1 & Q2 & Q3)]]]; auto. right. right. right. split; auto. exists a, na. rewrite E in Q2. auto.
Qed.
Lemma same_room : forall r s s', same_state s s' -> room r s -> room r s'.
Proof. intros r s s' (_ & _ & E) R i n H. rewrite E in H. eauto. Qed.
Lemma same_rowed : forall s s0 e row r s', same_state s s0 -> rowed s0 e row r s' -> rowed s e row r s'.
Proof.
  intros s s0 e row r s' SM [A B C D F G]. assert (E := SM). destruct E as (_ & _ & E). constructor; auto.
  - rewrite <- E. exact B.
  - rewrite <- E. exact C.
  - intros p l CL. apply F. apply (same_children s s0 SM). exact CL.
  - intros j n H. apply G. rewrite E. exact H.
Qed.
Lemma same_taken : forall s s0 x s', same_state s s0 -> taken s0 x s' -> taken s x s'.
Proof.
  intros s s0 x s' SM [A B C D]. assert (E := SM). destruct E as (_ & _ & E). constructor; auto.
  - intros p l LP CL. apply B; auto. apply (same_children s s0 SM). exact CL.
  - intros y n H NA. apply C; [rewrite E; exact H|]. intros Q. apply NA. apply (same_anc s s0 x y SM). exact Q.
  - intros n H RP. destruct (D n) as [D1 D2]; auto. { rewrite E; exact H. } split; auto. intros y (m & M). apply D2. exists m. rewrite E. exact M.
Qed.

(** ** The search for the section *)

Lemma body_name : s_TBODY <> [] /\ s_TBODY <> [42%N].
Proof. split; discriminate. Qed.
Lemma foot_name : s_TFOOT <> [] /\ s_TFOOT <> [42%N].
Proof. split; discriminate. Qed.

Lemma in_window_iff : forall insert len before size z, (0 <= z < 2147483648)%Z -> (N.of_nat before <= 2147483648)%N -> (N.of_nat size < 2147483648)%N ->
  in_window insert (N.of_nat len) (N.of_nat before) (N.of_nat size) z = ((z <? Z.of_nat (before + size))%Z || (insert && (before + size =? len)))%bool.
Proof.
  intros insert len before size z Z B S. unfold in_window. rewrite as_u32_small by lia.
  assert (U : u32 (N.of_nat before + N.of_nat size) = N.of_nat (before + size)) by (unfold u32, two32; rewrite N.mod_small; lia). rewrite U. f_equal; [lia|]. f_equal. lia.
Qed.

Lemma bodies_pass : forall A s ch insert (act : id -> Z -> M st A) len z a rest before m c f, wf s ch -> roomy s -> fwd (s_heap s) c (a ++ rest) -> body_rows (s_heap s) a m ->
  (0 <= z < 2147483648)%Z -> (Z.of_nat (before + m) <= z)%Z -> (insert = true -> before + m < len) -> length a <= f ->
  exists c', fwd (s_heap s) c' rest /\ bodies f insert act (N.of_nat len) (N.of_nat before) z c s = bodies (f - length a) insert act (N.of_nat len) (N.of_nat (before + m)) z c' s.
Proof.
  intros A s ch insert act len z a. induction a as [|x a IH]; intros rest before m c f W R F BR ZB ZM LM LF.
  - inversion BR; subst. exists c. split; auto. cbn [length]. rewrite Nat.sub_0_r, Nat.add_0_r. reflexivity.
  - cbn [app] in F. inversion F as [|i n l H F']; subst. cbn [length] in LF. destruct f as [|f]; [lia|]. cbn [length]. replace (S f - S (length a)) with (f - length a) by lia.
    destruct body_name as [N1 N2]. inversion BR as [|y k l m' P RW BR' E1 E2|y l m' NP BR' E1 E2]; subst.
    + destruct (IH rest (before + length k) m' (n_next n) f W R F' BR' ZB) as (c' & F'' & E). { lia. } { lia. } { lia. }
      exists c'. split; auto. cbn [bodies]. step (load_ok _ _ _ H). destruct P as (n' & H' & P). assert (n' = n) by congruence. subst n'.
      rewrite (proj2 (named_iff s_TBODY n N1 N2) P). step (rows_length_ok s ch x k W R RW). pose proof (rows_bound _ _ _ RW). rewrite in_window_iff by lia.
      assert (Q : ((z <? Z.of_nat (before + length k))%Z || (insert && (before + length k =? len)))%bool = false).
      { apply orb_false_iff. split; [lia|]. destruct insert; auto. specialize (LM eq_refl). cbn [andb]. lia. }
      rewrite Q. assert (U : u32 (N.of_nat before + N.of_nat (length k)) = N.of_nat (before + length k)) by (unfold u32, two32; rewrite N.mod_small; lia). rewrite U, E.
      f_equal. lia.
    + destruct (IH rest before m (n_next n) f W R F' BR' ZB ZM LM) as (c' & F'' & E). { lia. }
      exists c'. split; auto. cbn [bodies]. step (load_ok _ _ _ H).
      destruct (element_node n && caseless_isequal (Some s_TBODY) (n_name n)) eqn:Q; [|exact E]. exfalso. apply NP. exists n. split; auto. apply (named_iff s_TBODY n N1 N2). exact Q.
Qed.

Section Sections.
  Variables (s : st) (ch : id -> list id) (e t : id) (k kt : list id).
  Hypothesis W : wf s ch.
  Hypothesis R : room 16 s.
  Hypothesis RW : rows (s_heap s) e k.
  Hypothesis FT : first_that (part s_THEAD (s_heap s)) (ch e) (Some t).
  Hypothesis RT : rows (s_heap s) t kt.

  Section Acting.
  Variable A : Type.
  Variable act : id -> Z -> M st A.
  Variables (insert : bool) (z : Z).
  Hypothesis ZB : (0 <= z <= Z.of_nat (length k))%Z.

  (** The head is passed over. *)
  Lemma head_pass : (Z.of_nat (length kt) <= z)%Z -> (insert = true -> length kt < length k) ->
    exists s2 ne, same_state s s2 /\ s_heap s2 e = Some ne /\ in_section insert act e (N.of_nat (length k)) z s =
     (w <- with_fuel (fun f => bodies f insert act (N.of_nat (length k)) (N.of_nat (length kt)) z (n_first ne)) ;;
      match w with
      | inl x => ret x
      | inr before =>
        o <- table_part s_TFOOT e ;;
        t <- deref o ;;
        size <- rows_length t ;;
        if in_window insert (N.of_nat (length k)) before size z then
          r <- try (act t (as_i32 (as_u32 (z - Z.of_N before)))) ;; node_unref t ;;; match r with inl x => ret x | inr y => raise y end
        else (if insert then node_unref t else ret tt) ;;; raise INDEX_SIZE_ERR
      end) s2.
  Proof.
    intros HB HL. pose proof (rows_bound _ _ _ RW) as BK. pose proof (rows_bound _ _ _ RT) as BT. destruct head_name as [N1 N2].
    destruct (part_start s_THEAD (conj N1 N2) s ch e t k kt W R RW FT RT) as (s1 & nt & E1 & A1 & W1 & R1 & RT1 & EL & HT & PT).
    assert (PN : n_parent nt <> None) by congruence. pose proof (room_roomy _ R) as R8.
    destruct (give_back s s1 ch t nt W A1 HT PN (R8 _ _ HT)) as (s2 & E2 & SM). pose proof RW as ((ne & He & TE & _) & _).
    assert (He2 : s_heap s2 e = Some ne). { destruct SM as (_ & _ & E). rewrite E. exact He. }
    exists s2, ne. split; auto. split; auto. unfold in_section. step E1. cbn [deref]. rewrite bind_ret. step EL. change 0%N with (N.of_nat 0).
    rewrite in_window_iff by lia. assert (Q : ((z <? Z.of_nat (0 + length kt))%Z || (insert && (0 + length kt =? length k)))%bool = false).
    { apply orb_false_iff. split; [lia|]. destruct insert; auto. specialize (HL eq_refl). cbn [andb]. lia. }
    rewrite Q. step E2. step (load_ok _ _ _ He2). reflexivity.
  Qed.

  (** The body [b] is the one. *)
  Lemma body_found : forall a b c kb m, ch e = a ++ b :: c -> body_rows (s_heap s) a m -> part s_TBODY (s_heap s) b -> rows (s_heap s) b kb ->
    (Z.of_nat (length kt + m) <= z)%Z -> (insert = true -> length kt + m < length k) ->
    (z < Z.of_nat (length kt + m + length kb))%Z \/ (insert = true /\ length kt + m + length kb = length k) ->
    exists s2, same_state s s2 /\ in_section insert act e (N.of_nat (length k)) z s = act b (z - Z.of_nat (length kt + m))%Z s2.
  Proof.
    intros a b c kb m EC BR PB RB ZM LM D. pose proof (rows_bound _ _ _ RW) as BK. pose proof (rows_bound _ _ _ RT) as BT. pose proof (rows_bound _ _ _ RB) as BB.
    destruct head_pass as (s2 & ne & SM & He2 & E). { lia. } { intros Q. specialize (LM Q). lia. }
    pose proof (same_wf _ _ _ SM W) as W2. pose proof (same_roomy _ _ SM (room_roomy _ R)) as R2. pose proof W2 as (WL2 & WT2 & _).
    destruct (ch_children _ _ WT2 e (ex_intro _ ne He2)) as (ne' & He' & F). assert (ne' = ne) by congruence. subst ne'. rewrite EC in F.
    assert (LF : length (ch e) <= fuel_of s2). { pose proof (ch_length s2 ch WL2 WT2 e). unfold fuel_of. lia. } rewrite EC, app_length in LF. cbn [length] in LF.
    destruct (bodies_pass A s2 ch insert act (length k) z a (b :: c) (length kt) m (n_first ne) (fuel_of s2) W2 R2 F) as (c' & F' & EP); auto.
    { eapply same_body_rows; eauto. } { lia. } { lia. }
    inversion F' as [|i n l H F'']; subst i. subst c'. destruct body_name as [N1 N2].
    assert (PB2 : part s_TBODY (s_heap s2) b) by (apply (same_part s s2); auto). destruct PB2 as (n' & H' & P2). assert (n' = n) by congruence. subst n'.
    assert (EB : bodies (fuel_of s2 - length a) insert act (N.of_nat (length k)) (N.of_nat (length kt + m)) z (Some b) s2 = (x <- act b (z - Z.of_nat (length kt + m))%Z ;; ret (inl x)) s2).
    { destruct (fuel_of s2 - length a) as [|f] eqn:FU; [lia|]. cbn [bodies]. step (load_ok _ _ _ H). rewrite (proj2 (named_iff s_TBODY n N1 N2) P2).
      step (rows_length_ok s2 ch b kb W2 R2 (same_rows _ _ _ _ SM RB)). rewrite in_window_iff by lia.
      assert (Q : ((z <? Z.of_nat (length kt + m + length kb))%Z || (insert && (length kt + m + length kb =? length k)))%bool = true).
      { apply orb_true_iff. destruct D as [D|[-> D]]; [left; lia|right; cbn [andb]; lia]. }
      rewrite Q. assert (IX : as_i32 (as_u32 (z - Z.of_N (N.of_nat (length kt + m)))) = (z - Z.of_nat (length kt + m))%Z).
      { rewrite as_u32_small by lia. replace (Z.to_N (z - Z.of_N (N.of_nat (length kt + m)))) with (N.of_nat (Z.to_nat (z - Z.of_nat (length kt + m)))) by lia. rewrite as_i32_small; lia. }
      rewrite IX. reflexivity. }
    exists s2. split; auto. rewrite E. unfold bind at 1. unfold with_fuel. rewrite EP, EB. unfold bind. destruct (act b (z - Z.of_nat (length kt + m))%Z s2); reflexivity.
  Qed.

  (** The foot is the one. *)
  Lemma foot_found : forall m tf kf, body_rows (s_heap s) (ch e) m -> first_that (part s_TFOOT (s_heap s)) (ch e) (Some tf) -> rows (s_heap s) tf kf ->
    (Z.of_nat (length kt + m) <= z)%Z -> (insert = true -> length kt + m < length k) ->
    (z < Z.of_nat (length kt + m + length kf))%Z \/ (insert = true /\ length kt + m + length kf = length k) ->
    exists s2, same_state s s2 /\ forall s3, table_part s_TFOOT e s2 = Ok (Some tf) s3 -> rows_length tf s3 = Ok (N.of_nat (length kf)) s3 ->
      in_section insert act e (N.of_nat (length k)) z s = on_part tf act (z - Z.of_nat (length kt + m))%Z s3.
  Proof.
    intros m tf kf BR FF RF ZM LM D. pose proof (rows_bound _ _ _ RW) as BK. pose proof (rows_bound _ _ _ RT) as BT. pose proof (rows_bound _ _ _ RF) as BF.
    destruct head_pass as (s2 & ne & SM & He2 & E). { lia. } { intros Q. specialize (LM Q). lia. }
    pose proof (same_wf _ _ _ SM W) as W2. pose proof (same_roomy _ _ SM (room_roomy _ R)) as R2. pose proof W2 as (WL2 & WT2 & _).
    destruct (ch_children _ _ WT2 e (ex_intro _ ne He2)) as (ne' & He' & F). assert (ne' = ne) by congruence. subst ne'.
    assert (LF : length (ch e) <= fuel_of s2). { pose proof (ch_length s2 ch WL2 WT2 e). unfold fuel_of. lia. }
    rewrite <- (app_nil_r (ch e)) in F. destruct (bodies_pass A s2 ch insert act (length k) z (ch e) [] (length kt) m (n_first ne) (fuel_of s2) W2 R2 F) as (c' & F' & EP); auto.
    { eapply same_body_rows; eauto. } { lia. }
    inversion F'; subst c'. assert (EB : with_fuel (fun f => bodies f insert act (N.of_nat (length k)) (N.of_nat (length kt)) z (n_first ne)) s2 = Ok (inr (N.of_nat (length kt + m))) s2).
    { unfold with_fuel. rewrite EP. destruct (fuel_of s2 - length (ch e)); reflexivity. }
    exists s2. split; auto. intros s3 E3 EL. rewrite E. step EB. step E3. cbn [deref]. rewrite bind_ret. step EL. rewrite in_window_iff by lia.
    assert (Q : ((z <? Z.of_nat (length kt + m + length kf))%Z || (insert && (length kt + m + length kf =? length k)))%bool = true).
    { apply orb_true_iff. destruct D as [D|[-> D]]; [left; lia|right; cbn [andb]; lia]. }
    rewrite Q. assert (IX : as_i32 (as_u32 (z - Z.of_N (N.of_nat (length kt + m)))) = (z - Z.of_nat (length kt + m))%Z).
    { rewrite as_u32_small by lia. replace (Z.to_N (z - Z.of_N (N.of_nat (length kt + m)))) with (N.of_nat (Z.to_nat (z - Z.of_nat (length kt + m)))) by lia. rewrite as_i32_small; lia. }
    rewrite IX. reflexivity.
  Qed.

  (** Past head and bodies, without a foot. *)
  Lemma foot_missing : forall m, body_rows (s_heap s) (ch e) m -> (forall x, In x (ch e) -> ~ part s_TFOOT (s_heap s) x) ->
    (Z.of_nat (length kt + m) <= z)%Z -> (insert = true -> length kt + m < length k) -> in_section insert act e (N.of_nat (length k)) z s = Bad NullDeref.
  Proof.
    intros m BR NF ZM LM. pose proof (rows_bound _ _ _ RW) as BK. pose proof (rows_bound _ _ _ RT) as BT.
    destruct head_pass as (s2 & ne & SM & He2 & E). { lia. } { intros Q. specialize (LM Q). lia. }
    pose proof (same_wf _ _ _ SM W) as W2. pose proof (same_roomy _ _ SM (room_roomy _ R)) as R2. pose proof W2 as (WL2 & WT2 & _).
    destruct (ch_children _ _ WT2 e (ex_intro _ ne He2)) as (ne' & He' & F). assert (ne' = ne) by congruence. subst ne'.
    assert (LF : length (ch e) <= fuel_of s2). { pose proof (ch_length s2 ch WL2 WT2 e). unfold fuel_of. lia. }
    rewrite <- (app_nil_r (ch e)) in F. destruct (bodies_pass A s2 ch insert act (length k) z (ch e) [] (length kt) m (n_first ne) (fuel_of s2) W2 R2 F) as (c' & F' & EP); auto.
    { eapply same_body_rows; eauto. } { lia. }
    inversion F'; subst c'. assert (EB : with_fuel (fun f => bodies f insert act (N.of_nat (length k)) (N.of_nat (length kt)) z (n_first ne)) s2 = Ok (inr (N.of_nat (length kt + m))) s2).
    { unfold with_fuel. rewrite EP. destruct (fuel_of s2 - length (ch e)); reflexivity. }
    rewrite E. step EB. destruct foot_name as [N1 N2]. pose proof (same_rows _ _ _ _ SM RW) as ((nf & Hf & TF & _) & _).
    destruct (table_part_ok s2 ch s_TFOOT e nf None N1 N2 W2 R2 Hf TF) as (s3 & E3 & _). { apply no_part. intros x I P. apply (NF x I). apply (same_part s s2 _ x SM). exact P. }
    step E3. reflexivity.
  Qed.

  (** The head is the one. *)
  Lemma head_found : (z < Z.of_nat (length kt))%Z \/ (insert = true /\ length kt = length k) ->
    forall s1, table_part s_THEAD e s = Ok (Some t) s1 -> rows_length t s1 = Ok (N.of_nat (length kt)) s1 ->
    in_section insert act e (N.of_nat (length k)) z s = on_part t act z s1.
  Proof.
    intros D s1 E1 EL. pose proof (rows_bound _ _ _ RW) as BK. pose proof (rows_bound _ _ _ RT) as BT.
    unfold in_section. step E1. cbn [deref]. rewrite bind_ret. step EL. change 0%N with (N.of_nat 0). rewrite in_window_iff by lia.
    assert (Q : ((z <? Z.of_nat (0 + length kt))%Z || (insert && (0 + length kt =? length k)))%bool = true).
    { apply orb_true_iff. destruct D as [D|[-> D]]; [left; lia|right; cbn [andb]; lia]. }
    rewrite Q. reflexivity.
  Qed.
  End Acting.

  Hypothesis NK : k <> [].
  Variable index : Z.

  Lemma insert_section : (-1 <= index <= Z.of_nat (length k))%Z ->
    table_insert_row e index s = in_section true section_insert_row e (N.of_nat (length k)) (at_index k true index) s /\ (0 <= at_index k true index <= Z.of_nat (length k))%Z.
  Proof.
    intros IB. pose proof (rows_bound _ _ _ RW) as BK. split; [|unfold at_index; destruct (Z.eqb_spec index (-1)); lia].
    unfold table_insert_row. step (rows_length_ok s ch e k W (room_roomy _ R) RW). rewrite as_i32_small by auto.
    assert (Q : (Z.of_nat (length k) <? index)%Z || (index <? -1)%Z = false) by lia. rewrite Q.
    assert (Q2 : (N.of_nat (length k) =? 0)%N = false) by (destruct k; [congruence|cbn [length]; lia]). rewrite Q2.
    unfold at_index. destruct (index =? -1)%Z; reflexivity.
  Qed.
  Lemma delete_section : (-1 <= index < Z.of_nat (length k))%Z ->
    table_delete_row e index s = in_section false section_delete_row e (N.of_nat (length k)) (at_index k false index) s /\ (0 <= at_index k false index <= Z.of_nat (length k))%Z.
  Proof.
    intros IB. assert (LK : length k <> 0) by (intros Q; apply NK; apply length_zero_iff_nil; exact Q). pose proof (rows_bound _ _ _ RW) as BK. split; [|unfold at_index; destruct (Z.eqb_spec index (-1)); lia].
    unfold table_delete_row. step (rows_length_ok s ch e k W (room_roomy _ R) RW). rewrite as_i32_small by auto.
    assert (Q : (Z.of_nat (length k) <=? index)%Z || (index <? -1)%Z || (N.of_nat (length k) =? 0)%N = false) by lia. rewrite Q.
    unfold at_index. destruct (index =? -1)%Z; reflexivity.
  Qed.

  (** *** Inserting *)
  Lemma put_head : (-1 <= index <= Z.of_nat (length k))%Z -> ~ read_only (s_heap s) t ->
    (at_index k true index < Z.of_nat (length kt))%Z \/ length kt = length k ->
    (forall x, row_at kt (at_index k true index) = Some x -> parent_of (s_heap s) x = Some t) -> put_in s e index t kt (at_index k true index).
  Proof.
    intros IB NR D PX. destruct (insert_section IB) as [E ZB]. destruct (part_insert s_THEAD head_name s ch e t k kt W R RW FT RT NR (at_index k true index)) as (s1 & row & s' & E1 & EL & EA & RR & LL); auto. { lia. }
    exists row, s'. split; [|auto]. rewrite E, <- EA. apply head_found; auto. destruct D; auto.
  Qed.
  Lemma put_body : forall a b c kb m, (-1 <= index <= Z.of_nat (length k))%Z -> ~ read_only (s_heap s) b -> ch e = a ++ b :: c -> body_rows (s_heap s) a m -> part s_TBODY (s_heap s) b ->
    rows (s_heap s) b kb -> (Z.of_nat (length kt + m) <= at_index k true index)%Z -> length kt + m < length k ->
    (at_index k true index < Z.of_nat (length kt + m + length kb))%Z \/ length kt + m + length kb = length k ->
    (forall x, row_at kb (at_index k true index - Z.of_nat (length kt + m)) = Some x -> parent_of (s_heap s) x = Some b) -> put_in s e index b kb (at_index k true index - Z.of_nat (length kt + m)).
  Proof.
    intros a b c kb m IB NR EC BR PB RB ZM LM D PX. destruct (insert_section IB) as [E ZB].
    destruct (body_found id section_insert_row true _ ZB a b c kb m EC BR PB RB ZM) as (s2 & SM & E2); auto. { destruct D; auto. }
    destruct (section_insert_ok s2 ch b kb (same_wf _ _ _ SM W) (same_roomy _ _ SM (room_roomy _ R)) (same_rows _ _ _ _ SM RB) (same_writable _ _ _ SM NR) (at_index k true index - Z.of_nat (length kt + m)))
      as (row & s' & E3 & _ & RR & LL). { lia. }
    { intros x X. rewrite <- (PX x X). unfold parent_of. destruct SM as (_ & _ & Q). rewrite Q. reflexivity. }
    exists row, s'. split; [congruence|]. split; auto. eapply same_rowed; eauto.
  Qed.
  Lemma put_foot : forall m tf kf, (-1 <= index <= Z.of_nat (length k))%Z -> ~ read_only (s_heap s) tf -> body_rows (s_heap s) (ch e) m -> first_that (part s_TFOOT (s_heap s)) (ch e) (Some tf) ->
    rows (s_heap s) tf kf -> (Z.of_nat (length kt + m) <= at_index k true index)%Z -> length kt + m < length k ->
    (at_index k true index < Z.of_nat (length kt + m + length kf))%Z \/ length kt + m + length kf = length k ->
    (forall x, row_at kf (at_index k true index - Z.of_nat (length kt + m)) = Some x -> parent_of (s_heap s) x = Some tf) -> put_in s e index tf kf (at_index k true index - Z.of_nat (length kt + m)).
  Proof.
    intros m tf kf IB NR BR FF RF ZM LM D PX. destruct (insert_section IB) as [E ZB].
    destruct (foot_found id section_insert_row true _ ZB m tf kf BR FF RF ZM) as (s2 & SM & E2); auto. { destruct D; auto. }
    destruct (part_insert s_TFOOT foot_name s2 ch e tf k kf (same_wf _ _ _ SM W) (same_room _ _ _ SM R) (same_rows _ _ _ _ SM RW) (same_first _ _ _ _ _ SM FF) (same_rows _ _ _ _ SM RF) (same_writable _ _ _ SM NR)
      (at_index k true index - Z.of_nat (length kt + m))) as (s3 & row & s' & E3 & EL & EA & RR & LL). { lia. }
    { intros x X. rewrite <- (PX x X). unfold parent_of. destruct SM as (_ & _ & Q). rewrite Q. reflexivity. }
    exists row, s'. split. { rewrite E, (E2 s3 E3 EL). exact EA. } split; auto. eapply same_rowed; eauto.
  Qed.

  (** *** Deleting *)
  Lemma cut_head : forall x, (-1 <= index < Z.of_nat (length k))%Z -> ~ read_only (s_heap s) t -> (at_index k false index < Z.of_nat (length kt))%Z ->
    row_named kt (at_index k false index) = Some x -> parent_of (s_heap s) x = Some t -> cut_from s e index t kt x.
  Proof.
    intros x IB NR D NX PX. destruct (delete_section IB) as [E ZB].
    destruct (part_delete s_THEAD head_name s ch e t k kt W R RW FT RT NR (at_index k false index) x) as (s1 & s' & kt' & E1 & EL & EA & Q); auto. { lia. }
    exists s', kt'. split; auto. rewrite E, <- EA. apply head_found; auto.
  Qed.
  Lemma cut_body : forall a b c kb m x, (-1 <= index < Z.of_nat (length k))%Z -> ~ read_only (s_heap s) b -> ch e = a ++ b :: c -> body_rows (s_heap s) a m -> part s_TBODY (s_heap s) b ->
    rows (s_heap s) b kb -> (Z.of_nat (length kt + m) <= at_index k false index < Z.of_nat (length kt + m + length kb))%Z ->
    row_named kb (at_index k false index - Z.of_nat (length kt + m)) = Some x -> parent_of (s_heap s) x = Some b -> cut_from s e index b kb x.
  Proof.
    intros a b c kb m x IB NR EC BR PB RB ZM NX PX. destruct (delete_section IB) as [E ZB].
    destruct (body_found unit section_delete_row false _ ZB a b c kb m EC BR PB RB) as (s2 & SM & E2); auto. { lia. } { discriminate. } { left. lia. }
    pose proof (same_wf _ _ _ SM W) as W2. pose proof (same_rows _ _ _ _ SM RB) as RB2.
    destruct (section_delete_ok s2 ch b kb (at_index k false index - Z.of_nat (length kt + m)) x W2 (same_roomy _ _ SM (room_roomy _ R)) RB2)
      as (s' & kb' & E3 & _ & TK & LL & PK); auto. { lia. }
    { rewrite <- PX. unfold parent_of. destruct SM as (_ & _ & Q). rewrite Q. reflexivity. } { eapply same_writable; eauto. }
    exists s', kb'. split; [congruence|]. pose proof (same_taken _ _ _ _ SM TK) as TK'. split; [apply (tk_lists _ _ _ TK')|]. split; [|split; auto].
    - destruct LL as (l & O & _). eapply order_members; [exact O|eapply order_head; eauto].
    - eapply picks_iff; [|exact PK]. intros y. pose proof (same_anc s s2 x y SM) as Q. tauto.
  Qed.
  Lemma cut_foot : forall m tf kf x, (-1 <= index < Z.of_nat (length k))%Z -> ~ read_only (s_heap s) tf -> body_rows (s_heap s) (ch e) m -> first_that (part s_TFOOT (s_heap s)) (ch e) (Some tf) ->
    rows (s_heap s) tf kf -> (Z.of_nat (length kt + m) <= at_index k false index < Z.of_nat (length kt + m + length kf))%Z ->
    row_named kf (at_index k false index - Z.of_nat (length kt + m)) = Some x -> parent_of (s_heap s) x = Some tf -> cut_from s e index tf kf x.
  Proof.
    intros m tf kf x IB NR BR FF RF ZM NX PX. destruct (delete_section IB) as [E ZB].
    destruct (foot_found unit section_delete_row false _ ZB m tf kf BR FF RF) as (s2 & SM & E2). { lia. } { discriminate. } { left. lia. }
    destruct (part_delete s_TFOOT foot_name s2 ch e tf k kf (same_wf _ _ _ SM W) (same_room _ _ _ SM R) (same_rows _ _ _ _ SM RW) (same_first _ _ _ _ _ SM FF) (same_rows _ _ _ _ SM RF) (same_writable _ _ _ SM NR)
      (at_index k false index - Z.of_nat (length kt + m)) x) as (s3 & s' & kf' & E3 & EL & EA & Q1 & Q2 & Q3 & Q4); auto. { lia. }
    { rewrite <- PX. unfold parent_of. destruct SM as (_ & _ & Q). rewrite Q. reflexivity. }
    exists s', kf'. split. { rewrite E, (E2 s3 E3 EL). exact EA. } split.
    { intros p l LP C. apply Q1; auto. apply (same_children s s2 SM). exact C. }
    split; auto. split; auto. eapply picks_iff; [|exact Q4]. intros y. pose proof (same_anc s s2 x y SM) as Q. tauto.
  Qed.
End Sections.
