(** Token lists do what they mean. *)
From Coq Require Import List Arith NArith Bool Lia ZifyBool ZifyNat ZifyN.
From Verif Require Import Base StringModel StringSpec StringProofs TokenModel TokenSpec.
Import ListNotations.

Lemma beq : forall a b, bytes_eqb a b = true <-> a = b.
Proof. intros a b. destruct (bytes_eqb_spec a b); intuition congruence. Qed.
Lemma mem_in : forall t l, mem t l = true <-> In t l.
Proof. intros t l. unfold mem. rewrite existsb_exists. split; [intros (x & I & E); apply beq in E; congruence|]. intros I. exists t. rewrite beq. auto. Qed.

(** ** Pieces *)
Definition solid (t : bytes) : Prop := Forall (fun c => c <> 32%N) t.
Lemma pieces_solid : forall t p w, solid t -> pieces (t ++ p) w = pieces p (w ++ t).
Proof.
  induction t as [|c t IH]; intros p w S; cbn [app pieces]; [rewrite app_nil_r; auto|]. inversion S; subst.
  replace (c =? 32)%N with false by lia. rewrite IH by auto. rewrite <- app_assoc. auto.
Qed.
Lemma pieces_end : forall p w, w <> [] -> p = [] \/ is_space p = true -> pieces p w = w :: pieces p [].
Proof. intros p w N [->|H]; destruct w; cbn [pieces]; try congruence; auto. destruct p as [|c p]; [discriminate|]. cbn [is_space] in H. cbn [pieces]. rewrite H. auto. Qed.
Lemma pieces_token : forall t p, t <> [] -> solid t -> p = [] \/ is_space p = true -> pieces (t ++ p) [] = t :: pieces p [].
Proof. intros t p N S H. rewrite pieces_solid by auto. cbn [app]. apply pieces_end; auto. Qed.
Lemma pieces_spaces : forall t p, Forall (fun c => c = 32%N) t -> pieces (t ++ p) [] = pieces p [].
Proof. induction t as [|c t IH]; intros p F; auto. inversion F; subst. cbn. auto. Qed.

Lemma over_false : forall pos, exists t p, over false pos (length pos) = Some (t, p, length p) /\ pos = t ++ p /\ solid t /\ (p = [] \/ is_space p = true).
Proof.
  induction pos as [|c pos IH]; [exists [], []; repeat split; auto; constructor|]. cbn [length over]. destruct (c =? 32)%N eqn:C; cbn [Bool.eqb].
  - exists [], (c :: pos). split; [auto|]. split; [auto|]. split; [constructor|right; exact C].
  - destruct IH as (t & p & -> & E & S & H). exists (c :: t), p. split; [auto|]. split; [cbn; congruence|]. split; [|auto]. constructor; auto. lia.
Qed.
Lemma over_true : forall pos, exists t p, over true pos (length pos) = Some (t, p, length p) /\ pos = t ++ p /\ Forall (fun c => c = 32%N) t /\ (is_space pos = true -> t <> []).
Proof.
  induction pos as [|c pos IH]; [exists [], []; repeat split; auto; discriminate|]. cbn [length over is_space]. destruct (c =? 32)%N eqn:C; cbn [Bool.eqb].
  - destruct IH as (t & p & -> & E & S & H). exists (c :: t), p. split; [auto|]. split; [cbn; congruence|]. split; [|discriminate]. constructor; auto. lia.
  - exists [], (c :: pos). split; [auto|]. split; [auto|]. split; [constructor|discriminate].
Qed.
Lemma over_token : forall c pos, is_space (c :: pos) = false -> exists t p, over false (c :: pos) (length (c :: pos)) = Some (t, p, length p) /\ c :: pos = t ++ p /\ t <> [] /\ solid t /\ (p = [] \/ is_space p = true).
Proof.
  intros c pos H. destruct (over_false (c :: pos)) as (t & p & E1 & E2 & S & HP). exists t, p. repeat split; auto. intros ->. cbn in E2. subst p. destruct HP; congruence.
Qed.

Lemma pieces_len : forall v w, length (pieces v w) <= length v + (match w with [] => 0 | _ => 1 end).
Proof.
  induction v as [|c v IH]; intros w; cbn [pieces length]; [destruct w; cbn; lia|]. destruct (c =? 32)%N.
  - pose proof (IH []). destruct w; cbn [length]; cbn in H; lia.
  - pose proof (IH (w ++ [c])). destruct (w ++ [c]); destruct w; lia.
Qed.

Lemma count_ok : forall s n pos f, length pos <= n -> length pos <= f -> (N.of_nat (length pos) < 4294967296)%N -> count f pos (length pos) s = Ok (N.of_nat (length (pieces pos []))) s.
Proof.
  intros s. induction n as [|n IH]; intros pos f LE LF B.
  - destruct pos; [destruct f; reflexivity|cbn in LE; lia].
  - destruct pos as [|c pos]; [destruct f; reflexivity|]. destruct f as [|f]; [cbn in LF; lia|].
    change (count (S f) (c :: pos) (length (c :: pos))) with
      (if is_space (c :: pos) then match over true (c :: pos) (length (c :: pos)) with None => stuck OutOfBounds | Some (_, p, r) => count f p r end
       else match over false (c :: pos) (length (c :: pos)) with None => stuck OutOfBounds | Some (_, p, r) => (n <- count f p r ;; ret (u32 (n + 1)))%dom end).
    destruct (is_space (c :: pos)) eqn:SP.
    + destruct (over_true (c :: pos)) as (t & p & -> & E & S & NE). specialize (NE SP). rewrite E, pieces_spaces by auto.
      assert (L : length (c :: pos) = length t + length p) by (rewrite E, app_length; auto). destruct t; [congruence|]. cbn [length] in L, LE, LF, B. apply IH; lia.
    + destruct (over_token c pos SP) as (t & p & -> & E & NE & S & HP). rewrite E, pieces_token by auto.
      assert (L : length (c :: pos) = length t + length p) by (rewrite E, app_length; auto). destruct t; [congruence|]. cbn [length] in L, LE, LF, B.
      unfold bind. rewrite IH by lia. unfold ret. f_equal. cbn [length]. pose proof (pieces_len p []) as PL. cbn in PL. unfold u32, two32. rewrite N.mod_small; lia.
Qed.

Definition gather (acc l : list bytes) : list bytes := fold_left (fun acc t => if mem t acc then acc else acc ++ [t]) l acc.
Lemma parse_ok : forall s alloc n pos f ents, length pos <= n -> length pos <= f -> (N.of_nat (length ents + length (pieces pos [])) <= alloc)%N ->
  parse f alloc ents pos (length pos) s = Ok (gather ents (pieces pos [])) s.
Proof.
  intros s alloc. induction n as [|n IH]; intros pos f ents LE LF B.
  - destruct pos; [destruct f; reflexivity|cbn in LE; lia].
  - destruct pos as [|c pos]; [destruct f; reflexivity|]. destruct f as [|f]; [cbn in LF; lia|].
    change (parse (S f) alloc ents (c :: pos) (length (c :: pos))) with
      (if is_space (c :: pos) then match over true (c :: pos) (length (c :: pos)) with None => stuck OutOfBounds | Some (_, p, r) => parse f alloc ents p r end
       else match over false (c :: pos) (length (c :: pos)) with None => stuck OutOfBounds
            | Some (t, p, r) => if existsb (bytes_eqb t) ents then parse f alloc ents p r
                                else if (N.of_nat (length ents) <? alloc)%N then parse f alloc (ents ++ [t]) p r else stuck OutOfBounds end).
    destruct (is_space (c :: pos)) eqn:SP.
    + destruct (over_true (c :: pos)) as (t & p & -> & E & S & NE). specialize (NE SP). rewrite E, pieces_spaces in * by auto.
      assert (L : length (t ++ p) = length t + length p) by (rewrite app_length; auto). destruct t; [congruence|]. cbn [length] in L, LE, LF. apply IH; lia.
    + destruct (over_token c pos SP) as (t & p & -> & E & NE & S & HP). rewrite E, pieces_token in * by auto.
      assert (L : length (t ++ p) = length t + length p) by (rewrite app_length; auto). destruct t as [|x t]; [congruence|]. cbn [length] in L, LE, LF, B.
      cbn [gather fold_left]. fold (mem (x :: t) ents). destruct (mem (x :: t) ents).
      * apply IH; lia.
      * replace (N.of_nat (length ents) <? alloc)%N with true by lia. apply IH; rewrite ?app_length; cbn [length]; lia.
Qed.

(** ** Sets of tokens *)
Lemma gather_nodup : forall l acc, NoDup acc -> NoDup (gather acc l).
Proof.
  induction l as [|t l IH]; intros acc N; auto. cbn [gather fold_left]. apply IH. destruct (mem t acc) eqn:M; auto.
  assert (NI : ~ In t acc) by (intros I; apply mem_in in I; congruence). clear M IH.
  induction acc as [|a acc IH]; cbn; [constructor; auto; constructor|]. inversion N; subst. constructor; [|apply IH; auto; intros I; apply NI; right; auto].
  intros I. apply in_app_iff in I as [I|[->|[]]]; auto. apply NI. left; auto.
Qed.
Lemma gather_in : forall l acc t, In t (gather acc l) <-> In t acc \/ In t l.
Proof.
  induction l as [|x l IH]; intros acc t; cbn [gather fold_left]; [cbn; tauto|]. fold (gather (if mem x acc then acc else acc ++ [x]) l). rewrite IH. cbn [In].
  destruct (mem x acc) eqn:M; [apply mem_in in M; split; [tauto|intros [?|[<-|?]]; auto]|]. rewrite in_app_iff. cbn [In]. tauto.
Qed.
Lemma gather_fresh : forall l acc, NoDup (acc ++ l) -> gather acc l = acc ++ l.
Proof.
  induction l as [|t l IH]; intros acc N; cbn [gather fold_left]; [rewrite app_nil_r; auto|]. fold (gather (if mem t acc then acc else acc ++ [t]) l).
  destruct (mem t acc) eqn:M; [apply mem_in in M; exfalso; apply NoDup_remove_2 in N; apply N; apply in_app_iff; auto|].
  rewrite IH; rewrite <- app_assoc; auto.
Qed.
Lemma gather_len : forall l acc, length (gather acc l) <= length acc + length l.
Proof.
  induction l as [|t l IH]; intros acc; cbn [gather fold_left length]; [lia|]. fold (gather (if mem t acc then acc else acc ++ [t]) l).
  pose proof (IH (if mem t acc then acc else acc ++ [t])) as H. destruct (mem t acc); [lia|]. rewrite app_length in H. cbn in H. lia.
Qed.

Definition good_token (t : bytes) : Prop := t <> [] /\ solid t /\ Forall (fun c => (c < 128)%N) t.
Lemma pieces_good : forall v w, Forall (fun c => (c < 128)%N) (w ++ v) -> solid w -> Forall good_token (pieces v w).
Proof.
  induction v as [|c v IH]; intros w A S; cbn [pieces].
  - rewrite app_nil_r in A. destruct w; constructor; auto. split; [discriminate|]; auto.
  - destruct (c =? 32)%N eqn:C.
    + assert (AV : Forall (fun c => (c < 128)%N) v) by (apply Forall_app in A as [_ A]; inversion A; auto).
      assert (R : Forall good_token (pieces v [])) by (apply IH; auto; constructor). destruct w; auto. constructor; auto. apply Forall_app in A as [A _]. split; [discriminate|]; auto.
    + apply IH; [rewrite <- app_assoc; auto|]. apply Forall_app; split; auto. constructor; auto. lia.
Qed.
Lemma pieces_join : forall l, Forall good_token l -> pieces (join l) [] = l.
Proof.
  induction l as [|t l IH]; intros F; auto. inversion F as [|? ? [N [S A]] F']; subst. destruct l as [|u l].
  - cbn [join]. rewrite <- (app_nil_r t) at 1. rewrite pieces_token; auto.
  - change (join (t :: u :: l)) with (t ++ 32%N :: join (u :: l)). rewrite pieces_token; auto. cbn [pieces N.eqb Pos.eqb]. rewrite IH; auto.
Qed.
Lemma tokens_join : forall l, Forall good_token l -> NoDup l -> tokens (Some (join l)) = l.
Proof. intros l F N. unfold tokens. rewrite pieces_join by auto. apply (gather_fresh l []). auto. Qed.
Definition value_ok (v : option bytes) : Prop := match v with Some b => fits b | None => True end.
Lemma tokens_good : forall v, value_ok v -> Forall good_token (tokens v) /\ NoDup (tokens v).
Proof.
  intros [b|] V; [|split; constructor]. split; [|apply (gather_nodup _ []); constructor]. destruct V as [A _].
  assert (F : Forall good_token (pieces b [])) by (apply pieces_good; auto; constructor).
  apply Forall_forall. intros t I. apply gather_in in I as [[]|I]. rewrite Forall_forall in F. auto.
Qed.
Lemma without_good : forall t l, Forall good_token l /\ NoDup l -> Forall good_token (without t l) /\ NoDup (without t l).
Proof.
  intros t l [F N]. split; [|apply NoDup_filter; auto]. rewrite Forall_forall in *. intros x I. apply filter_In in I as [I _]. auto.
Qed.
Lemma add_good : forall t l, Forall good_token l /\ NoDup l -> a_token t -> mem t l = false -> Forall good_token (l ++ [t]) /\ NoDup (l ++ [t]).
Proof.
  intros t l [F N] [NE A] M. split.
  - apply Forall_app. split; auto. constructor; auto. split; auto. split; eapply Forall_impl; try exact A; cbn; intros; tauto.
  - apply NoDup_rev in N. rewrite <- (rev_involutive (l ++ [t])). apply NoDup_rev. rewrite rev_app_distr. cbn. constructor; auto. intros I. apply in_rev in I. apply mem_in in I. congruence.
Qed.
Lemma remove_first_without : forall t l, NoDup l -> remove_first t l = without t l.
Proof.
  induction l as [|x l IH]; intros N; auto. inversion N; subst. cbn [remove_first without filter]. destruct (bytes_eqb t x) eqn:E; cbn [negb].
  - apply beq in E. subst x. symmetry. clear IH. revert H1. induction l as [|y l IHl]; intros NI; auto. cbn [filter]. destruct (bytes_eqb t y) eqn:E; cbn [negb].
    + apply beq in E. subst. exfalso. apply NI. left; auto.
    + f_equal. apply IHl; [constructor; [intros I; apply NI; right; auto|inversion H2; auto]|inversion H2; auto|intros I; apply NI; right; auto].
  - f_equal. apply IH; auto.
Qed.

Fixpoint sum (l : list bytes) : nat := match l with [] => 0 | t :: l => length t + sum l end.
Lemma join_len : forall l, l <> [] -> length (join l) + 1 = sum l + length l.
Proof.
  induction l as [|t l IH]; intros N; [congruence|]. destruct l as [|u l]; [cbn; lia|].
  change (join (t :: u :: l)) with (t ++ 32%N :: join (u :: l)). rewrite app_length. specialize (IH ltac:(discriminate)). cbn [length sum] in *. lia.
Qed.
Lemma tokens_sum : forall v, sum (pieces v []) <= length v.
Proof.
  assert (G : forall v w, sum (pieces v w) <= length w + length v).
  { induction v as [|c v IH]; intros w; cbn [pieces]; [destruct w; cbn; lia|]. destruct (c =? 32)%N.
    - pose proof (IH []) as H. cbn in H. destruct w; cbn [sum length] in *; lia.
    - pose proof (IH (w ++ [c])) as H. rewrite app_length in H. cbn [length] in *. lia. }
  intros v. pose proof (G v []) as H. cbn in H. auto.
Qed.

(** ** States *)
Lemma nth_replace : forall A (l : list A) i j x, nth_error (replace i x l) j = if Nat.eqb i j then match nth_error l j with Some _ => Some x | None => None end else nth_error l j.
Proof.
  induction l as [|y l IH]; intros i j x.
  - destruct i, j; cbn; auto. destruct (Nat.eqb i j); auto.
  - destruct i, j; cbn [replace nth_error Nat.eqb]; auto.
Qed.
Lemma replace_len : forall A (l : list A) i x, length (replace i x l) = length l.
Proof. induction l as [|y l IH]; intros i x; destruct i; cbn; auto. Qed.

Record list_ok (v : option bytes) (l : tlist) : Prop := mkListOk {
  lo_ents : t_needs l = false -> t_ents l = tokens v;
  lo_room : (N.of_nat (length (t_ents l)) <= t_alloc l)%N
}.
Record coherent (s : tst) (w : tmean) : Prop := mkCoherent {
  co_value : t_value s = m_value w;
  co_ok : value_ok (m_value w);
  co_last : map t_last (t_lists s) = m_wrote w;
  co_lists : forall i l, nth_error (t_lists s) i = Some l -> list_ok (m_value w) l
}.

Lemma ascii_encoded : forall b, Forall (fun c => (c < 128)%N) b -> encoded b = b.
Proof.
  induction b as [|c b IH]; intros F; auto. inversion F; subst. unfold encoded in *. cbn [flat_map]. rewrite IH by auto. unfold utf8. replace (c <? 128)%N with true by lia. auto.
Qed.
Lemma slen_ok : forall b s, fits b -> slen b s = Ok (length b) s.
Proof.
  intros b s [A L]. unfold slen. rewrite <- (ascii_encoded b A) at 1. rewrite (string_length_ok b tt); [f_equal; lia|].
  split; [|rewrite ascii_encoded by auto; unfold two32; lia]. apply Forall_forall. intros c I. rewrite Forall_forall in A. apply A in I. unfold character. lia.
Qed.

Lemma there : forall s w i, coherent s w -> i < length (m_wrote w) -> exists l, nth_error (t_lists s) i = Some l /\ nth_error (m_wrote w) i = Some (t_last l).
Proof.
  intros s w i C L. rewrite <- (co_last _ _ C) in L. rewrite map_length in L. destruct (nth_error (t_lists s) i) as [l|] eqn:E; [|apply nth_error_None in E; lia].
  exists l. split; auto. rewrite <- (co_last _ _ C). rewrite nth_error_map, E. auto.
Qed.
Lemma tget_ok : forall s i l, nth_error (t_lists s) i = Some l -> tget i s = Ok l s.
Proof. intros s i l E. unfold tget. rewrite E. auto. Qed.

Lemma tput_coherent : forall s w i l l', coherent s w -> nth_error (t_lists s) i = Some l -> t_last l' = t_last l -> list_ok (m_value w) l' ->
  coherent (mkTst (t_value s) (replace i l' (t_lists s))) w.
Proof.
  intros s w i l l' C E TL LO. constructor; cbn; try apply C.
  - rewrite <- (co_last _ _ C). clear -E TL. revert i E. generalize (t_lists s). induction l0 as [|x q IH]; intros i E; [destruct i; auto|].
    destruct i; cbn [replace map nth_error] in *; [inversion E; subst; congruence|]. f_equal. apply IH; auto.
  - intros j x. rewrite nth_replace. destruct (Nat.eqb i j) eqn:IJ.
    + destruct (nth_error (t_lists s) j); [|discriminate]. intros X; inversion X; subst; auto.
    + apply C.
Qed.

Lemma tokens_len : forall b, length (tokens (Some b)) <= length b.
Proof. intros b. unfold tokens, once. pose proof (gather_len (pieces b []) []) as H. pose proof (pieces_len b []) as P. unfold gather in H. cbn in H, P. lia. Qed.

Lemma reparse_ok : forall s w i, coherent s w -> i < length (m_wrote w) ->
  exists s' l, reparse i s = Ok tt s' /\ coherent s' w /\ nth_error (t_lists s') i = Some l /\ t_needs l = false /\ t_ents l = tokens (m_value w).
Proof.
  intros s w i C L. destruct (there s w i C L) as (l & E & _). pose proof (co_lists _ _ C i l E) as LO. unfold reparse, bind at 1. rewrite (tget_ok _ _ _ E).
  destruct (t_needs l) eqn:NP; cbn [negb]; [|exists s, l; split; [auto|]; split; [auto|]; split; [auto|]; split; [auto|]; apply LO; auto].
  assert (FIN : forall ents alloc, ents = tokens (m_value w) -> (N.of_nat (length ents) <= alloc)%N ->
    exists s' l', tput i (mkTlist ents alloc (t_last l) false) s = Ok tt s' /\ coherent s' w /\ nth_error (t_lists s') i = Some l' /\ t_needs l' = false /\ t_ents l' = tokens (m_value w)).
  { intros ents alloc EE RO. eexists _, (mkTlist ents alloc (t_last l) false). split; [reflexivity|]. split.
    - eapply tput_coherent; eauto. constructor; auto.
    - split; [cbn [t_lists]; rewrite nth_replace, Nat.eqb_refl, E; auto|]. split; auto. }
  unfold bind at 1. unfold get_attribute. rewrite (co_value _ _ C). pose proof (co_ok _ _ C) as V. destruct (m_value w) as [b|] eqn:MV.
  - cbn [value_ok] in V. destruct V as [A B]. unfold bind at 1. rewrite slen_ok by (split; auto). unfold bind at 1. rewrite (count_ok s (length b) b (length b)) by lia.
    pose proof (pieces_len b []) as PL. cbn in PL.
    destruct (N.of_nat (length (pieces b [])) =? 0)%N eqn:Z.
    + apply FIN; [|cbn; lia]. assert (P0 : pieces b [] = []) by (destruct (pieces b []); [auto|cbn in Z; lia]). unfold tokens. rewrite P0. auto.
    + cbv zeta. unfold bind at 1. rewrite (parse_ok s _ (length b)); [apply FIN|lia|lia|]; cbn [length].
      * auto.
      * pose proof (gather_len (pieces b []) []) as H. cbn in H. destruct (t_alloc l <? N.of_nat (length (pieces b [])))%N eqn:AL; lia.
      * destruct (t_alloc l <? N.of_nat (length (pieces b [])))%N eqn:AL; lia.
  - apply FIN; auto. cbn. lia.
Qed.

(** A write of the attribute, by the list [by_] or by others. *)
Lemma handle_last : forall v l, t_last (handle v l) = t_last l.
Proof. intros v l. unfold handle. destruct (t_last l) as [x|] eqn:E; cbn; auto. destruct (bytes_eqb x (shown v)); cbn; auto. Qed.
Lemma handle_ok : forall v v' v0 l, list_ok v0 l -> shown v = shown v' -> (t_last l = Some (shown v) -> tokens v0 = tokens v') -> list_ok v' (handle v l).
Proof.
  intros v v' v0 l [E R] SV H. unfold handle. destruct (t_last l) as [x|] eqn:TL.
  - destruct (bytes_eqb x (shown v)) eqn:B.
    + apply beq in B. subst x. constructor; auto. intros N. rewrite E by auto. auto.
    + constructor; cbn; auto; discriminate.
  - constructor; cbn; auto; discriminate.
Qed.
Lemma change_ok : forall s w v v', coherent s w -> shown v = shown v' -> value_ok v' -> no_echo w None v' ->
  coherent (mkTst v' (map (handle v) (t_lists s))) (mkTmean v' (m_wrote w)).
Proof.
  intros s w v v' C SV VO NE. constructor; cbn; auto.
  - rewrite map_map. rewrite <- (co_last _ _ C). apply map_ext. intros l. apply handle_last.
  - intros i x. rewrite nth_error_map. destruct (nth_error (t_lists s) i) as [l|] eqn:E; [|discriminate]. intros X; inversion X; subst x.
    refine (handle_ok v v' (m_value w) l (co_lists _ _ C i l E) SV _). intros TL. apply (NE i); [discriminate|]. rewrite <- (co_last _ _ C), nth_error_map, E. cbn. congruence.
Qed.
Lemma write_ok : forall s w i l alloc out, coherent s w -> nth_error (t_lists s) i = Some l -> fits out -> no_echo w (Some i) (Some out) ->
  (N.of_nat (length (tokens (Some out))) <= alloc)%N ->
  coherent (mkTst (Some out) (map (handle (Some out)) (replace i (mkTlist (tokens (Some out)) alloc (Some out) false) (t_lists s)))) (wrote w i out).
Proof.
  intros s w i l alloc out C E F NE RO. constructor; cbn [t_value t_lists wrote m_value m_wrote]; auto.
  - rewrite map_map. rewrite <- (co_last _ _ C). clear -E. revert i E. generalize (t_lists s). induction l0 as [|x q IH]; intros i E; [destruct i; auto|].
    destruct i; cbn [replace map nth_error] in *; rewrite handle_last; cbn [t_last]; f_equal; auto. clear. induction q as [|y q IH]; cbn; auto. rewrite handle_last, IH. auto.
  - intros j x. rewrite nth_error_map, nth_replace. destruct (Nat.eqb i j) eqn:IJ.
    + destruct (nth_error (t_lists s) j); [|discriminate]. intros X. inversion X; subst x. eapply (handle_ok _ _ (Some out)); auto. constructor; auto.
    + destruct (nth_error (t_lists s) j) as [y|] eqn:Y; [|discriminate]. intros X. inversion X; subst x. eapply handle_ok; [apply (co_lists _ _ C j y Y)|auto|].
      intros TL. apply (NE j); [intros Q; inversion Q; subst; rewrite Nat.eqb_refl in IJ; discriminate|]. rewrite <- (co_last _ _ C), nth_error_map, Y. cbn. rewrite TL. auto.
Qed.

(** *** Writing the tokens out *)
Lemma good_fits : forall l t, Forall good_token l -> In t l -> (N.of_nat (sum l) < 4294967295)%N -> fits t.
Proof.
  intros l t F I B. split; [rewrite Forall_forall in F; apply F in I; apply I|]. enough (length t <= sum l) by lia.
  clear F B. induction l as [|x l IH]; [destruct I|]. destruct I as [->|I]; cbn [sum]; [lia|]. apply IH in I. lia.
Qed.
Lemma total_ok : forall l s, Forall good_token l -> (N.of_nat (sum l) < 4294967295)%N -> total l s = Ok (N.of_nat (sum l)) s.
Proof.
  induction l as [|t l IH]; intros s F B; auto. inversion F; subst. cbn [total sum] in *. unfold bind at 1. rewrite slen_ok by (apply (good_fits (t :: l)); [auto|left; auto|cbn [sum]; lia]).
  unfold bind. rewrite IH by (auto; lia). unfold ret, u32, two32. f_equal. rewrite N.mod_small; lia.
Qed.
Fixpoint spread (l : list bytes) : bytes := match l with [] => [] | t :: l => t ++ 32%N :: spread l end.
Lemma copies_ok : forall l s, Forall good_token l -> (N.of_nat (sum l) < 4294967295)%N -> copies l s = Ok (spread l) s.
Proof.
  induction l as [|t l IH]; intros s F B; auto. inversion F; subst. cbn [copies sum spread] in *. unfold bind at 1. rewrite slen_ok by (apply (good_fits (t :: l)); [auto|left; auto|cbn [sum]; lia]).
  unfold bind. rewrite IH by (auto; lia). unfold ret. rewrite firstn_all. auto.
Qed.
Lemma spread_join : forall l, l <> [] -> spread l = join l ++ [32%N].
Proof.
  induction l as [|t l IH]; intros N; [congruence|]. destruct l as [|u l]; auto. change (join (t :: u :: l)) with (t ++ 32%N :: join (u :: l)).
  change (spread (t :: u :: l)) with (t ++ 32%N :: spread (u :: l)). rewrite IH by discriminate. rewrite <- app_assoc. auto.
Qed.
Lemma reify_ok : forall s w i l, coherent s w -> nth_error (t_lists s) i = Some l -> forall es alloc, Forall good_token es -> NoDup es -> fits (join es) ->
  no_echo w (Some i) (Some (join es)) -> (N.of_nat (length es) <= alloc)%N ->
  exists s', reify i (mkTst (t_value s) (replace i (mkTlist es alloc (t_last l) false) (t_lists s))) = Ok tt s' /\ coherent s' (wrote w i (join es)).
Proof.
  intros s w i l C E es alloc G ND F NE RO. pose proof (tokens_join es G ND) as TJ.
  assert (X : nth_error (t_lists (mkTst (t_value s) (replace i (mkTlist es alloc (t_last l) false) (t_lists s)))) i = Some (mkTlist es alloc (t_last l) false))
    by (cbn; rewrite nth_replace, Nat.eqb_refl, E; auto).
  assert (RR : forall x y, replace i y (replace i x (t_lists s)) = replace i y (t_lists s)).
  { intros x y. generalize (t_lists s) i. clear. induction l as [|z l IH]; intros [|i]; cbn; auto. rewrite IH. auto. }
  pose proof (write_ok s w i l alloc (join es) C E F NE) as WO. rewrite TJ in WO. specialize (WO RO).
  unfold reify, bind at 1. rewrite (tget_ok _ _ _ X). cbn [t_ents t_alloc t_last t_needs]. destruct es as [|e es'].
  - unfold bind at 1. cbn [tput t_value t_lists]. unfold set_attribute. cbn [t_lists shown]. rewrite RR. eexists. split; [reflexivity|]. exact WO.
  - set (es := e :: es') in *. assert (NN : es <> []) by discriminate. pose proof (join_len es NN) as JL. destruct F as [FA FL].
    assert (BL : (N.of_nat (sum es) < 4294967295)%N). { assert (1 <= length es) by (unfold es; cbn; lia). lia. }
    unfold bind at 1. rewrite total_ok by auto. unfold bind at 1. rewrite copies_ok by auto. cbv zeta. rewrite spread_join by auto.
    assert (RM : u32 (N.of_nat (sum es) + N.of_nat (length es)) = N.of_nat (length (join es) + 1)) by (unfold u32, two32; rewrite N.mod_small; lia).
    rewrite RM, app_length. cbn [length]. rewrite N.ltb_irrefl. replace (N.to_nat (N.of_nat (length (join es) + 1)) - 1) with (length (join es)) by lia.
    rewrite firstn_app, firstn_all, Nat.sub_diag, firstn_O, app_nil_r. unfold bind at 1. cbn [tput t_value t_lists]. unfold set_attribute. cbn [t_lists shown]. rewrite RR.
    eexists. split; [reflexivity|]. exact WO.
Qed.

(** ** Every call *)
Lemma without_join_fits : forall v t, value_ok v -> fits (join (without t (tokens v))).
Proof.
  intros v t V. destruct (tokens_good v V) as [G ND]. destruct (without_good t _ (conj G ND)) as [G' _].
  assert (A : forall l, Forall good_token l -> Forall (fun c => (c < 128)%N) (join l)).
  { clear. induction l as [|x l IH]; intros F; [constructor|]. inversion F as [|? ? (_ & _ & A) F']; subst. destruct l as [|y l]; auto.
    change (join (x :: y :: l)) with (x ++ 32%N :: join (y :: l)). apply Forall_app; split; auto. constructor; [lia|]. auto. }
  split; [apply A; auto|]. destruct v as [b|]; [|cbn; lia]. cbn [value_ok] in V. destruct V as [_ B].
  assert (JJ : forall l, length (join l) <= sum l + (length l - 1)).
  { clear. intros l. destruct l as [|x l]; [cbn; lia|]. pose proof (join_len (x :: l) ltac:(discriminate)). cbn [length] in *. lia. }
  (* a part of the pieces, with the spaces between them *)
  assert (P : forall v w, pieces v w <> [] -> sum (pieces v w) + length (pieces v w) <= length w + length v + 1).
  { clear. induction v as [|c v IH]; intros w N; cbn [pieces] in *; [destruct w; [congruence|cbn; lia]|]. destruct (c =? 32)%N.
    - destruct w as [|x w]; [specialize (IH [] N); cbn in *; lia|]. destruct (pieces v []) as [|y q] eqn:Q; [cbn; lia|]. specialize (IH []). rewrite Q in IH. specialize (IH ltac:(discriminate)). cbn [sum length] in *. lia.
    - specialize (IH (w ++ [c]) N). rewrite app_length in IH. cbn [length] in *. lia. }
  assert (W : forall l, sum (without t l) + length (without t l) <= sum l + length l).
  { clear. induction l as [|x l IH]; cbn [without filter]; [auto|]. destruct (negb (bytes_eqb t x)); cbn [sum length]; unfold without in IH; lia. }
  assert (GA : forall l acc, sum (gather acc l) + length (gather acc l) <= sum acc + length acc + (sum l + length l)).
  { clear. induction l as [|x l IH]; intros acc; cbn [gather fold_left sum length]; [lia|]. fold (gather (if mem x acc then acc else acc ++ [x]) l).
    pose proof (IH (if mem x acc then acc else acc ++ [x])) as H. destruct (mem x acc); [lia|]. rewrite app_length in H. cbn [length] in H.
    assert (S : sum (acc ++ [x]) = sum acc + length x) by (clear; induction acc as [|a acc IH]; cbn; [lia|rewrite IH; lia]). lia. }
  pose proof (JJ (without t (tokens (Some b)))) as J1. pose proof (W (tokens (Some b))) as W1. pose proof (GA (pieces b []) []) as G1. cbn [sum length] in G1.
  change (gather [] (pieces b [])) with (tokens (Some b)) in G1.
  destruct (pieces b []) as [|x q] eqn:Q.
  - cbn [sum length] in G1. assert (T0 : without t (tokens (Some b)) = []) by (destruct (without t (tokens (Some b))); [auto|cbn [length] in W1; lia]). rewrite T0. cbn. lia.
  - pose proof (P b []) as P1. rewrite Q in P1. specialize (P1 ltac:(discriminate)). cbn [length] in P1.
    destruct (without t (tokens (Some b))) as [|y z]; [cbn; lia|]. cbn [length] in *. lia.
Qed.

Theorem call_ok : forall s w o, coherent s w -> tlegal w o -> exists s', texec o s = Ok (fst (tmeans o w)) s' /\ coherent s' (snd (tmeans o w)).
Proof.
  intros s w o C L. destruct o; cbn [texec tmeans fst snd tlegal] in *; cbv zeta in *.
  - (* TNew *) exists (mkTst (t_value s) (t_lists s ++ [mkTlist [] 0 None true])). split; [unfold bind, create, ret; rewrite <- (co_last _ _ C), map_length; auto|].
    constructor; cbn; try apply C; [rewrite map_app; cbn; rewrite (co_last _ _ C); auto|].
    intros i l E. destruct (Nat.lt_ge_cases i (length (t_lists s))) as [LT|GE]; [rewrite nth_error_app1 in E by auto; apply C in E; auto|].
    rewrite nth_error_app2 in E by auto. destruct (i - length (t_lists s)) as [|[|k]]; cbn in E; inversion E; subst. constructor; cbn; [discriminate|lia].
  - destruct (reparse_ok s w i C L) as (s' & l & R & C' & E & _ & T). exists s'. split; auto. unfold get_length, bind. rewrite R, (tget_ok _ _ _ E). unfold ret. rewrite T. auto.
  - destruct (reparse_ok s w i C L) as (s' & l & R & C' & E & _ & T). exists s'. split; auto. unfold item, bind. rewrite R, (tget_ok _ _ _ E). unfold ret. rewrite T.
    destruct (n <? N.of_nat (length (tokens (m_value w))))%N eqn:LT.
    + replace (N.of_nat (length (tokens (m_value w))) <=? n)%N with false by lia. destruct (nth_error (tokens (m_value w)) (N.to_nat n)) eqn:NE; auto. apply nth_error_None in NE. lia.
    + replace (N.of_nat (length (tokens (m_value w))) <=? n)%N with true by lia. auto.
  - destruct (reparse_ok s w i C L) as (s' & l & R & C' & E & _ & T). exists s'. split; auto. unfold contains, bind. rewrite R, (tget_ok _ _ _ E). unfold ret. rewrite T. auto.
  - (* TAdd *) destruct L as (L & AT & FJ & NE). destruct (reparse_ok s w i C L) as (s1 & l & R & C1 & E & NP & T).
    unfold bind at 1. unfold add, bind at 1. unfold contains, bind at 1. rewrite R. unfold bind at 1. rewrite (tget_ok _ _ _ E). unfold ret at 1. rewrite T. fold (mem t (tokens (m_value w))).
    destruct (mem t (tokens (m_value w))) eqn:M; [exists s1; auto|]. specialize (NE eq_refl).
    destruct (add_good t _ (tokens_good _ (co_ok _ _ C)) AT M) as [G ND]. pose proof (lo_room _ _ (co_lists _ _ C1 i l E)) as RO. rewrite T in RO.
    unfold bind at 1. rewrite (tget_ok _ _ _ E). cbv zeta. rewrite T, NP.
    assert (SM : (N.of_nat (length (tokens (m_value w))) < 4294967290)%N \/ (N.of_nat (length (tokens (m_value w))) >= 4294967290)%N) by lia.
    destruct FJ as [FA FB].
    assert (LT : (N.of_nat (length (tokens (m_value w))) < 2147483648)%N).
    { assert (NN : tokens (m_value w) ++ [t] <> []) by (destruct (tokens (m_value w)); discriminate). pose proof (join_len _ NN) as JL. rewrite app_length in JL. cbn [length] in JL.
      assert (SG : forall q, Forall good_token q -> length q <= sum q). { clear. induction q as [|x q IH]; intros F; cbn; auto. inversion F as [|? ? (N & _) F']; subst. destruct x; [congruence|]. specialize (IH F'). cbn. lia. }
      pose proof (SG _ G) as S1. rewrite app_length in S1. cbn [length] in S1. lia. }
    set (alloc := if (N.of_nat (length (tokens (m_value w))) =? t_alloc l)%N then u32 (t_alloc l + 4) else t_alloc l).
    assert (RA : (N.of_nat (length (tokens (m_value w) ++ [t])) <= alloc)%N).
    { rewrite app_length. cbn [length]. subst alloc. destruct (N.of_nat (length (tokens (m_value w))) =? t_alloc l)%N eqn:EQ; [unfold u32, two32; rewrite N.mod_small; lia|lia]. }
    rewrite app_length in RA. cbn [length] in RA. replace (N.of_nat (length (tokens (m_value w))) <? alloc)%N with true by lia.
    unfold bind at 1. cbn [tput]. destruct (reify_ok s1 w i l C1 E (tokens (m_value w) ++ [t]) alloc G ND (conj FA FB) NE) as (s' & RF & C'); [rewrite app_length; cbn [length]; lia|].
    rewrite RF. exists s'. auto.
  - (* TRemove *) destruct L as (L & NE). destruct (reparse_ok s w i C L) as (s1 & l & R & C1 & E & NP & T).
    pose proof (lo_room _ _ (co_lists _ _ C1 i l E)) as RO. rewrite T in RO. destruct (tokens_good _ (co_ok _ _ C)) as [G0 ND0].
    destruct (without_good t _ (conj G0 ND0)) as [G ND]. pose proof (without_join_fits _ t (co_ok _ _ C)) as FJ.
    unfold bind at 1. unfold remove, bind at 1. rewrite R. unfold bind at 1. rewrite (tget_ok _ _ _ E). rewrite T, NP, (remove_first_without _ _ ND0). unfold bind at 1. cbn [tput].
    destruct (reify_ok s1 w i l C1 E (without t (tokens (m_value w))) (t_alloc l) G ND FJ NE) as (s' & RF & C').
    { assert (WL : length (without t (tokens (m_value w))) <= length (tokens (m_value w))) by (unfold without; generalize (tokens (m_value w)); clear; induction l as [|x l IH]; cbn; auto; destruct (negb _); cbn; lia). lia. }
    rewrite RF. exists s'. auto.
  - destruct (there s w i C L) as (l & E & _). exists s. split; auto. unfold get_value, bind. rewrite (tget_ok _ _ _ E). unfold get_attribute, ret. rewrite (co_value _ _ C). auto.
  - destruct L as (L & F & NE). destruct (there s w i C L) as (l & E & _). eexists. split; [unfold set_value, bind; rewrite (tget_ok _ _ _ E); reflexivity|].
    apply change_ok; auto.
  - exists s. split; auto. unfold bind, get_attribute, ret. rewrite (co_value _ _ C). auto.
  - destruct L as (F & NE). eexists. split; [reflexivity|]. apply change_ok; auto.
  - unfold bind, remove_attribute, ret. rewrite (co_value _ _ C). destruct (m_value w) as [b|] eqn:MV.
    + eexists. split; [reflexivity|]. apply change_ok; cbn; auto.
    + exists s. split; auto. destruct w as [mv mw]. cbn in MV. subst mv. exact C.
Qed.
Theorem treach_coherent : forall s w, treach s w -> coherent s w.
Proof.
  intros s w T. induction T as [|s w o r s' T IH L E]; [constructor; cbn; auto; intros i l H; destruct i; discriminate|].
  destruct (call_ok s w o IH L) as (s1 & E1 & C). congruence.
Qed.
Theorem token_calls : forall s w o, treach s w -> tlegal w o -> exists s', texec o s = Ok (fst (tmeans o w)) s' /\ treach s' (snd (tmeans o w)).
Proof.
  intros s w o T L. destruct (call_ok s w o (treach_coherent s w T) L) as (s' & E & _). exists s'. split; auto. eapply tr_call; eauto.
Qed.
