(** The text of an option. *)
From Coq Require Import List Arith NArith Bool Lia ZifyBool ZifyNat ZifyN.
From Verif Require Import Base HeapModel HeapSpec HeapInv HeapExec HeapTree HistModel TreeSpec StringModel
  WalkModel WalkSpec WalkProofs WalkLists WalkText HtmlModel HtmlSpec OptionModel OptionSpec OptionWords.
Import ListNotations.
Local Open Scope dom_scope.

(** ** By trees *)
(** What a node adds to the text around it, given the text of its children. *)
Definition adds (h : heap) (i : id) (inner : option bytes) (all : list bytes) : option bytes :=
  match h i with
  | Some n =>
      match n_type n with
      | COMMENT | PI => None
      | ELEMENT => if skipped n then None else option_map squeeze inner
      | TEXT | CDATA => n_value n
      | DOCUMENT | DOCTYPE => None
      | _ => joined all
      end
  | None => None
  end.
Definition sum (l : list (option bytes)) : option bytes := fold_left add_text l None.
Fixpoint contrib (h : heap) (t : rose) : option bytes :=
  match t with T i _ ks => adds h i (sum (map (contrib h) ks)) (tvals h (flat_map pre ks)) end.
Definition inner (h : heap) (t : rose) : option bytes := match t with T _ _ ks => sum (map (contrib h) ks) end.

Lemma add_comb : forall a b, add_text a b = comb a b.
Proof. reflexivity. Qed.
Lemma comb_assoc : forall a b c, comb (comb a b) c = comb a (comb b c).
Proof. intros [a|] [b|] [c|]; cbn; auto. rewrite app_assoc. reflexivity. Qed.
Lemma fold_sum : forall l a, fold_left add_text l a = comb a (sum l).
Proof.
  unfold sum. induction l as [|x l IH]; intros a; cbn [fold_left]; [destruct a; reflexivity|]. rewrite IH, (IH (add_text None x)).
  change (add_text a x) with (comb a x). change (add_text None x) with x. apply comb_assoc.
Qed.
Lemma sum_cons : forall x l, sum (x :: l) = comb x (sum l).
Proof. intros x l. unfold sum at 1. cbn [fold_left]. rewrite fold_sum. destruct x; reflexivity. Qed.

Section Text.
  Variable s : st.
  Hypothesis L : linked s.
  Let h := s_heap s.

  (** ** The calls *)
  Definition tells (t : rose) : Prop := forall f n, tr h t -> h (root t) = Some n -> length (pre t) <= f -> n_type n = ELEMENT ->
    option_text_at f (root t) s = Ok (option_map squeeze (inner h t)) s.

  Lemma plain_child : forall p np t n, tr h t -> h p = Some np -> n_type np <> DOCUMENT -> h (root t) = Some n -> n_type n <> ATTRIBUTE -> n_parent n = Some p ->
    n_type n <> ELEMENT -> n_type n <> COMMENT -> n_type n <> PI ->
    get_text_content (root t) s = Ok (contrib h t) s.
  Proof.
    intros p np [i ats ks] n R HP ND H NA PA N1 N2 N3. cbn [root] in *. cbn [contrib]. unfold adds. rewrite H.
    pose proof (ln_nests _ L _ _ _ _ H PA HP NA) as Q.
    destruct (container (n_type n)) eqn:CT.
    - pose proof (order_pre h _ R _ (tr_order h _ R)) as O. pose proof (tr_order h _ R) as O'. cbn [root pre] in O'.
      assert (TX : forall l, (forall j, In j l -> live h j) -> texts h l (tvals h l)).
      { induction l as [|j l IH]; intros A; [constructor|]. destruct (A j) as (m & M); [left; auto|]. unfold tvals. cbn [flat_map]. unfold tval at 1. rewrite M.
        destruct (n_type m) eqn:TM, (n_value m) eqn:V; cbn [app];
          first [ (eapply tx_text; [exact M|rewrite TM; auto|exact V|apply IH; intros; apply A; right; auto])
                | (eapply tx_other; [exact M|first [right; exact V|left; rewrite TM; split; discriminate]|apply IH; intros; apply A; right; auto]) ]. }
      rewrite (text_content s L i n (flat_map pre ks) (tvals h (flat_map pre ks)) H CT O').
      + destruct (n_type n); try congruence; try discriminate; reflexivity.
      + apply TX. intros j I. apply (tr_live h _ R). cbn [pre]. right; auto.
    - assert (TY : n_type n = TEXT \/ n_type n = CDATA).
      { inversion Q as [p' c' Y1 Y2|c' Y|c' Y]; subst.
        - destruct Y2 as [Y2|[Y2|[Y2|[Y2|[Y2|[Y2|[]]]]]]]; rewrite <- Y2 in *; try discriminate; try congruence; auto.
        - destruct Y as [Y|[Y|[]]]; rewrite <- Y in *; try discriminate; auto.
        - congruence. }
      rewrite (text_content_data s i n H); [destruct TY as [-> | ->]; reflexivity|]. destruct TY as [-> | ->]; cbn; auto.
  Qed.

  Lemma option_loop_ok : forall f ks, Forall tells ks -> forall p np g str, Forall (tr h) ks -> chain h p (map root ks) ->
    h p = Some np -> n_type np <> DOCUMENT -> length (flat_map pre ks) <= f -> length ks < g ->
    option_loop g (option_text_at f) (hd_error (map root ks)) str s = Ok (fold_left add_text (map (contrib h) ks) str) s.
  Proof.
    intros f. induction ks as [|t ks IH]; intros FS p np g str FT C HP ND LF LG.
    - destruct g; reflexivity.
    - inversion FS as [|t0 k0 G FS']; subst. inversion FT as [|t0 k0 R FT']; subst.
      cbn [map chain] in C. destruct C as [(n & A1 & A2 & A3 & A4) C]. cbn [flat_map] in LF. rewrite app_length in LF.
      destruct g as [|g]; [cbn in LG; lia|]. cbn [map hd_error option_loop fold_left]. rewrite (bind_ok _ _ _ _ _ _ _ _ (load_ok _ _ _ A1)).
      assert (Q : match n_type n with
                  | COMMENT | PI => ret str
                  | ELEMENT => if skipped n then ret str else r <- option_text_at f (root t) ;; ret (add_text str r)
                  | _ => r <- get_text_content (root t) ;; ret (add_text str r)
                  end s = Ok (add_text str (contrib h t)) s).
      { assert (P : n_type n <> ELEMENT -> n_type n <> COMMENT -> n_type n <> PI ->
           bind (get_text_content (root t)) (fun r => ret (add_text str r)) s = Ok (add_text str (contrib h t)) s).
        { intros N1 N2 N3. rewrite (bind_ok _ _ _ _ _ _ _ _ (plain_child p np t n R HP ND A1 A2 A3 N1 N2 N3)). reflexivity. }
        destruct (n_type n) eqn:TY; try (apply P; discriminate); destruct t as [i ats kt]; cbn [root] in *; cbn [contrib]; unfold adds; rewrite A1, TY.
        - destruct (skipped n) eqn:SK; [destruct str; reflexivity|].
          pose proof (G f n R A1 ltac:(lia) TY) as E. cbn [root inner] in E. rewrite (bind_ok _ _ _ _ _ _ _ _ E). reflexivity.
        - destruct str; reflexivity.
        - destruct str; reflexivity. }
      rewrite (bind_ok _ _ _ _ _ _ _ _ Q). rewrite A4. apply (IH FS' p np); auto; [lia|cbn in LG; lia].
  Qed.

  Lemma tells_all : forall t, tells t.
  Proof.
    intros t. induction t as [i ats ks _ IH] using rose_ind2. intros f n R Hn LF TY. cbn [root inner] in *. cbn [pre length] in LF.
    destruct (tr_inv _ _ _ _ R) as (m & A & E1 & E2 & C & N1 & F). assert (m = n) by congruence; subst m.
    destruct f as [|f]; [lia|]. cbn [option_text_at]. rewrite (bind_ok _ _ _ _ _ _ _ _ (load_ok _ _ _ Hn)).
    destruct (ln_owner _ L _ _ Hn) as (d & D); [rewrite TY; discriminate|].
    assert (SZ : length (pre (T i ats ks)) <= s_nxt s) by (apply (tr_size _ L); auto). cbn [pre length] in SZ.
    rewrite D. cbn [is_none negb]. unfold assert_. cbn [negb]. rewrite bind_ret.
    assert (Q : with_fuel (fun g => option_loop g (option_text_at f) (n_first n) None) s = Ok (sum (map (contrib h) ks)) s).
    { unfold with_fuel. rewrite E1. apply (option_loop_ok f ks IH i n); auto; [rewrite TY; discriminate|lia|].
      pose proof (kids_len ks). unfold fuel_of. lia. }
    rewrite (bind_ok _ _ _ _ _ _ _ _ Q). destruct (sum (map (contrib h) ks)); reflexivity.
  Qed.

  Lemma option_text_tree : forall i n ats ks, h i = Some n -> n_type n = ELEMENT -> tr h (T i ats ks) ->
    option_text i s = Ok (option_map squeeze (sum (map (contrib h) ks))) s.
  Proof.
    intros i n ats ks H TY R. unfold option_text, with_fuel. pose proof (tr_size _ L _ R) as SZ.
    apply (tells_all (T i ats ks) (fuel_of s) n R H); auto. unfold fuel_of; lia.
  Qed.
End Text.
