(** textContent. *)
From Coq Require Import List Arith NArith Bool Lia ZifyBool ZifyNat ZifyN.
From Verif Require Import Base HeapModel HeapSpec HeapInv HeapExec HeapTree HeapInsert HeapCreate HistModel TreeSpec
  WalkModel WalkSpec WalkProofs WalkLists.
Import ListNotations.
Local Open Scope dom_scope.

Definition tval (h : heap) (i : id) : list bytes :=
  match h i with
  | Some n => match n_type n, n_value n with TEXT, Some v | CDATA, Some v => [v] | _, _ => [] end
  | None => []
  end.
Definition tvals (h : heap) (l : list id) : list bytes := flat_map (tval h) l.

Lemma texts_tvals : forall h l vs, texts h l vs -> vs = tvals h l.
Proof.
  intros h l vs T. induction T; auto; unfold tvals in *; cbn [flat_map]; rewrite <- IHT; unfold tval; rewrite H.
  - rewrite H1. destruct H0 as [-> | ->]; reflexivity.
  - destruct H0 as [[A B]|A]; [|rewrite A; destruct (n_type n); reflexivity].
    destruct (n_type n); try reflexivity; congruence.
Qed.

Definition comb (a b : option bytes) : option bytes :=
  match a, b with None, _ => b | Some a, Some b => Some (a ++ b) | Some a, None => Some a end.
Lemma joined_app : forall a b, joined (a ++ b) = comb (joined a) (joined b).
Proof.
  intros [|x a] b; simpl; [reflexivity|]. destruct b as [|y b]; simpl; [rewrite app_nil_r; reflexivity|].
  rewrite concat_app. simpl. rewrite app_assoc. reflexivity.
Qed.

(** Nodes whose textContent is that of the nodes below them. *)
Definition container (t : ntype) : bool :=
  match t with TEXT | CDATA | COMMENT | DOCUMENT | DOCTYPE => false | _ => true end.

Section Text.
  Variable s : st.
  Hypothesis L : linked s.
  Let h := s_heap s.

  Lemma leaf_type : forall i ats ks n, tr h (T i ats ks) -> h i = Some n ->
    In (n_type n) [TEXT; CDATA; COMMENT; PI; DOCTYPE] -> ks = [].
  Proof.
    intros i ats ks n R H I. destruct (tr_inv _ _ _ _ R) as (m & A & E1 & E2 & C & N1 & F).
    destruct ks as [|t ks]; auto. exfalso. cbn [map chain] in C. destruct C as [(n2 & A1 & A2 & A3 & A4) _].
    pose proof (ln_nests _ L _ _ _ _ A1 A3 H A2) as Q. simpl in I.
    destruct I as [X|[X|[X|[X|[X|[]]]]]]; rewrite <- X in Q; inversion Q as [p' c' Y1 Y2|c' Y|c' Y]; subst;
      destruct Y1 as [Y1|[Y1|[Y1|[Y1|[]]]]]; discriminate.
  Qed.

  Definition says (t : rose) : Prop := forall f n, tr h t -> h (root t) = Some n -> length (pre t) <= f -> container (n_type n) = true ->
    text_content_at f (root t) s = Ok (joined (tvals h (match t with T _ _ ks => flat_map pre ks end))) s.

  Lemma text_loop_ok : forall f ks, Forall says ks -> forall p np g str, Forall (tr h) ks -> chain h p (map root ks) ->
    h p = Some np -> n_type np <> DOCUMENT -> length (flat_map pre ks) <= f -> length ks < g ->
    text_loop g (text_content_at f) (hd_error (map root ks)) str s = Ok (comb str (joined (tvals h (flat_map pre ks)))) s.
  Proof.
    intros f. induction ks as [|t ks]; intros FS p np g str FT C HP ND LF LG.
    - cbn. destruct g, str; reflexivity.
    - inversion FS as [|t0 k0 G FS']; subst. inversion FT as [|t0 k0 R FT']; subst.
      cbn [map chain] in C. destruct C as [(n & A1 & A2 & A3 & A4) C]. cbn [flat_map] in *. rewrite app_length in LF.
      destruct g as [|g]; [simpl in LG; lia|]. cbn [map hd_error text_loop]. rewrite (bind_ok _ _ _ _ _ _ _ _ (load_ok _ _ _ A1)).
      assert (Q : match n_type n with
                  | COMMENT | PI => ret str
                  | _ => r <- text_content_at f (root t) ;;
                      ret match str, r with None, _ => r | Some a, Some b => Some (a ++ b) | Some a, None => Some a end
                  end s = Ok (comb str (joined (tvals h (pre t)))) s).
      { destruct t as [i ats kt]. cbn [root] in *.
        assert (LEN : 1 <= f) by (cbn [pre length] in LF; lia).
        destruct (container (n_type n)) eqn:CT.
        - assert (TV : tvals h (pre (T i ats kt)) = tvals h (flat_map pre kt)).
          { cbn [pre]. unfold tvals. cbn [flat_map]. unfold tval at 1. rewrite A1. destruct (n_type n); try discriminate; reflexivity. }
          rewrite TV. destruct (ntype_eqb (n_type n) PI) eqn:EP.
          + apply ntype_eqb_eq in EP. rewrite EP. assert (kt = []) by (apply (leaf_type i ats kt n R A1); rewrite EP; simpl; auto 6). subst kt.
            cbn. destruct str; reflexivity.
          + pose proof (G f n R A1 ltac:(lia) CT) as E. cbn [root] in E.
            assert (Q : bind (text_content_at f i) (fun r => ret match str, r with None, _ => r | Some a, Some b => Some (a ++ b) | Some a, None => Some a end) s
                        = Ok (comb str (joined (tvals h (flat_map pre kt)))) s).
            { rewrite (bind_ok _ _ _ _ _ _ _ _ E). unfold comb. reflexivity. }
            destruct (n_type n); try discriminate; exact Q.
        - assert (PD : nests (n_type np) (n_type n)) by (apply (ln_nests _ L i n p np); auto).
          assert (TY : In (n_type n) [TEXT; CDATA; COMMENT]).
          { inversion PD as [p' c' Y1 Y2|c' Y|c' Y]; subst.
            - destruct Y2 as [Y2|[Y2|[Y2|[Y2|[Y2|[Y2|[]]]]]]]; rewrite <- Y2 in *; try discriminate; simpl; auto.
            - destruct Y as [Y|[Y|[]]]; rewrite <- Y in *; try discriminate; simpl; auto.
            - congruence. }
          assert (kt = []). { apply (leaf_type i ats kt n R A1). simpl in *. tauto. } subst kt.
          assert (TC : text_content_at f i s = Ok (n_value n) s).
          { destruct f; [lia|]. cbn [text_content_at]. rewrite (bind_ok _ _ _ _ _ _ _ _ (load_ok _ _ _ A1)).
            simpl in TY. destruct TY as [E|[E|[E|[]]]]; rewrite <- E; reflexivity. }
          assert (TV : n_type n <> COMMENT -> joined (tvals h (pre (T i ats []))) = n_value n).
          { intros NC. cbn. unfold tval. fold h in A1. rewrite A1. simpl in TY.
            destruct TY as [E|[E|[E|[]]]]; rewrite <- E in *; [| |congruence]; destruct (n_value n); simpl; rewrite ?app_nil_r; reflexivity. }
          assert (Q : n_type n <> COMMENT -> bind (text_content_at f i) (fun r => ret match str, r with None, _ => r | Some a, Some b => Some (a ++ b) | Some a, None => Some a end) s
                        = Ok (comb str (joined (tvals h (pre (T i ats []))))) s).
          { intros NC. rewrite (bind_ok _ _ _ _ _ _ _ _ TC). rewrite (TV NC). reflexivity. }
          simpl in TY. destruct TY as [E|[E|[E|[]]]]; rewrite <- E in Q |- *; try (apply Q; discriminate).
          cbn. unfold tval. fold h in A1. rewrite A1, <- E. destruct str; reflexivity. }
      rewrite (bind_ok _ _ _ _ _ _ _ _ Q). rewrite A4. rewrite (IHks FS' p np); auto; [|lia|simpl in LG; lia].
      unfold tvals. rewrite flat_map_app. rewrite joined_app. f_equal. fold (tvals h (pre t)). fold (tvals h (flat_map pre ks)).
      destruct str as [a|], (joined (tvals h (pre t))) as [b|], (joined (tvals h (flat_map pre ks))) as [c|]; simpl; rewrite ?app_assoc; reflexivity.
  Qed.

  Lemma kids_len : forall ks, length ks <= length (flat_map pre ks).
  Proof. induction ks as [|[i a k] ks]; simpl; auto. rewrite app_length. lia. Qed.

  Lemma says_all : forall t, says t.
  Proof.
    intros t. induction t using rose_ind2. intros f n R Hn LF CT. cbn [root] in *. cbn [pre length] in LF.
    destruct (tr_inv _ _ _ _ R) as (m & A & E1 & E2 & C & N1 & F). assert (m = n) by congruence; subst m.
    destruct f as [|f]; [lia|]. cbn [text_content_at]. rewrite (bind_ok _ _ _ _ _ _ _ _ (load_ok _ _ _ Hn)).
    destruct (ln_owner _ L _ _ Hn) as (d & D); [destruct (n_type n); discriminate|].
    assert (SZ : length (pre (T i ats ks)) <= s_nxt s) by (apply (tr_size _ L); auto). cbn [pre length] in SZ.
    assert (Q : bind (assert_ (negb (is_none (n_owner n)))) (fun _ => with_fuel (fun g => text_loop g (text_content_at f) (n_first n) None)) s
       = Ok (joined (tvals h (flat_map pre ks))) s).
    { rewrite D. cbn [is_none negb]. unfold bind, assert_, ret. cbn. unfold with_fuel.
      rewrite E1. rewrite (text_loop_ok f ks H0 i n); auto.
      - destruct (n_type n); try discriminate; congruence.
      - lia.
      - pose proof (kids_len ks). unfold fuel_of. lia. }
    destruct (n_type n); try discriminate; exact Q.
  Qed.

  Theorem text_content : forall i n ds vs, h i = Some n -> container (n_type n) = true -> order h i (i :: ds) -> texts h ds vs ->
    get_text_content i s = Ok (joined vs) s.
  Proof.
    intros i n ds vs H CT O TX. destruct (linked_tree _ L i) as ([j ats ks] & R & E); [exists n; auto|]. simpl in E. subst j.
    pose proof (order_pre _ _ R _ O) as Q. cbn [pre] in Q. assert (ds = flat_map pre ks) by congruence. subst ds.
    rewrite (texts_tvals _ _ _ TX). unfold get_text_content, with_fuel.
    pose proof (tr_size _ L _ R) as SZ.
    apply (says_all (T i ats ks) (fuel_of s) n R H); auto. unfold fuel_of; lia.
  Qed.

  Theorem text_content_data : forall i n, h i = Some n -> In (n_type n) [TEXT; CDATA; COMMENT] ->
    get_text_content i s = Ok (n_value n) s.
  Proof.
    intros i n H T. unfold get_text_content, with_fuel. assert (F : fuel_of s = S (2 * s_nxt s + 7)) by (unfold fuel_of; lia). rewrite F.
    cbn [text_content_at]. rewrite (bind_ok _ _ _ _ _ _ _ _ (load_ok _ _ _ H)). simpl in T. destruct T as [T|[T|[T|[]]]]; rewrite <- T; reflexivity.
  Qed.
  Theorem text_content_null : forall i n, h i = Some n -> In (n_type n) [DOCUMENT; DOCTYPE] -> get_text_content i s = Ok None s.
  Proof.
    intros i n H T. unfold get_text_content, with_fuel. assert (F : fuel_of s = S (2 * s_nxt s + 7)) by (unfold fuel_of; lia). rewrite F.
    cbn [text_content_at]. rewrite (bind_ok _ _ _ _ _ _ _ _ (load_ok _ _ _ H)). simpl in T. destruct T as [T|[T|[]]]; rewrite <- T; reflexivity.
  Qed.
End Text.
