(** What values and default values read as, after any further calls. *)
From Coq Require Import List NArith Bool Arith Lia ZifyBool ZifyNat ZifyN.
From Verif Require Import Base StringModel StrRefModel StrRefSpec StrRefProofs.
Import ListNotations.
Local Open Scope dom_scope.

Lemma bind_inv {S A B} (m : M S A) (f : A -> M S B) s b s' : bind m f s = Ok b s' ->
  exists a s1, m s = Ok a s1 /\ f a s1 = Ok b s'.
Proof. unfold bind. destruct (m s) as [a s1| |]; [eauto|discriminate|discriminate]. Qed.

(** ** What each call does to the elements. *)
Definition els_same {A} (m : M cst A) : Prop := forall s a s', m s = Ok a s' -> c_els s' = c_els s.
Lemma es_ret {A} (a : A) : els_same (ret a).
Proof. intros s b s' E. injection E as _ <-. reflexivity. Qed.
Lemma es_bind {A B} (m : M cst A) (f : A -> M cst B) : els_same m -> (forall a, els_same (f a)) -> els_same (bind m f).
Proof.
  intros X Y s b s' E. destruct (bind_inv _ _ _ _ _ E) as (a & s1 & E1 & E2). rewrite (Y a _ _ _ E2). exact (X _ _ _ E1).
Qed.
Lemma es_ref i : els_same (s_ref i).
Proof. intros s a s' E. unfold s_ref in E. destruct (c_str s i) as [[b c]|]; [|discriminate]. injection E as _ <-. reflexivity. Qed.
Lemma es_unref i : els_same (s_unref i).
Proof. intros s a s' E. unfold s_unref in E. destruct (c_str s i) as [[b c]|]; [|discriminate]. injection E as _ <-. reflexivity. Qed.
Lemma es_oref o : els_same (o_ref o).
Proof. destruct o; [apply es_ref|apply es_ret]. Qed.
Lemma es_ounref o : els_same (o_unref o).
Proof. destruct o; [apply es_unref|apply es_ret]. Qed.
Lemma es_new b : els_same (s_new b).
Proof. intros s a s' E. injection E as _ <-. reflexivity. Qed.
Lemma es_data i : els_same (s_data i).
Proof. intros s a s' E. unfold s_data in E. destruct (c_str s i) as [[b c]|]; [|discriminate]. injection E as _ <-. reflexivity. Qed.
Lemma es_odata o : els_same (o_data o).
Proof. destruct o; [apply es_data|apply es_ret]. Qed.
Ltac es := repeat first [ apply es_ret | apply es_ref | apply es_unref | apply es_oref | apply es_ounref | apply es_new | apply es_data | apply es_odata | apply es_bind; [|intro] ].
Tactic Notation "inv_bind" hyp(H) "as" ident(a) ident(s1) ident(E) :=
  apply bind_inv in H; destruct H as (a & s1 & E & H).

Lemma es_split q : els_same (split q).
Proof. unfold split. es. destruct (cut a) as [[p l]|]; es. Qed.

(** Creation adds elements. *)
Lemma alloc_els name ns p s e s' : alloc_el name ns p s = Ok e s' -> exists x d, c_els s' = c_els s ++ [Some x] /\ e = length (c_els s) /\ e_ctl x = ctl_of d.
Proof.
  unfold alloc_el. intro H. inv_bind H as d s1 E. inv_bind H as u1 s2 E0. inv_bind H as u2 s3 E1. inv_bind H as u3 s4 E2.
  apply es_data in E. apply es_ref in E0. apply es_oref in E1. apply es_oref in E2. injection H as <- <-.
  eexists _, _. cbn [set_els c_els]. rewrite E2, E1, E0, E. split; [reflexivity|]. split; reflexivity.
Qed.
Lemma create_els tag ns p s r s' : create_internal tag ns p s = Ok r s' -> exists x d, c_els s' = c_els s ++ [Some x] /\ r = length (c_els s) /\ e_ctl x = ctl_of d.
Proof.
  unfold create_internal. intro H. inv_bind H as a s1 E. apply es_data in E. destruct a as [|c a]; [discriminate|].
  inv_bind H as a0 s2 E0. apply es_odata in E0. inv_bind H as nm s3 E1. assert (c_els s3 = c_els s2) as E1'.
  { destruct (bytes_eqb a0 svg_ns); [|exact (es_new _ _ _ _ E1)]. refine (es_bind (s_unref tag) (fun _ => ret tag) _ _ _ _ _ E1); [apply es_unref|intro; apply es_ret]. }
  inv_bind H as e0 s4 E2. apply alloc_els in E2 as (x & d0 & E2 & E3 & E5). inv_bind H as u s5 E4. apply es_unref in E4. injection H as <- <-. exists x, d0.
  rewrite E4, E2. rewrite E1', E0, E in *. auto.
Qed.

(** Only the creation of an element fails, before anything is done to the elements. *)
Definition noexc {A} (m : M cst A) : Prop := forall s x s', m s <> Exc x s'.
Lemma ne_ret {A} (a : A) : noexc (ret a).
Proof. intros s x s' E. discriminate. Qed.
Lemma ne_stuck {A} b : noexc (stuck b : M cst A).
Proof. intros s x s' E. discriminate. Qed.
Lemma ne_bind {A B} (m : M cst A) (f : A -> M cst B) : noexc m -> (forall a, noexc (f a)) -> noexc (bind m f).
Proof. intros X Y s x s' E. unfold bind in E. destruct (m s) as [a s1|y s1|] eqn:Q; [exact (Y _ _ _ _ E)|exact (X _ _ _ Q)|discriminate]. Qed.
Lemma ne_ref i : noexc (s_ref i).
Proof. intros s a s' E. unfold s_ref in E. destruct (c_str s i) as [[b c]|]; discriminate. Qed.
Lemma ne_unref i : noexc (s_unref i).
Proof. intros s a s' E. unfold s_unref in E. destruct (c_str s i) as [[b c]|]; discriminate. Qed.
Lemma ne_oref o : noexc (o_ref o).
Proof. destruct o; [apply ne_ref|apply ne_ret]. Qed.
Lemma ne_ounref o : noexc (o_unref o).
Proof. destruct o; [apply ne_unref|apply ne_ret]. Qed.
Lemma ne_data i : noexc (s_data i).
Proof. intros s a s' E. unfold s_data in E. destruct (c_str s i) as [[b c]|]; discriminate. Qed.
Lemma ne_odata o : noexc (o_data o).
Proof. destruct o; [apply ne_data|apply ne_ret]. Qed.
Lemma ne_new b : noexc (s_new b).
Proof. intros s a s' E. discriminate. Qed.
Lemma ne_el e : noexc (get_el e).
Proof. intros s a s' E. unfold get_el in E. destruct (el_at s e); discriminate. Qed.
Lemma ne_set e c : noexc (set_ctl e c).
Proof. intros s a s' E. unfold set_ctl in E. destruct (el_at s e); discriminate. Qed.
Lemma ne_fun {A} (f : cst -> A) (g : cst -> cst) : noexc (fun s => Ok (f s) (g s)).
Proof. intros s x s' E. discriminate. Qed.
Ltac ne := repeat first [ apply ne_ret | apply ne_stuck | apply ne_ref | apply ne_unref | apply ne_oref | apply ne_ounref | apply ne_new
  | apply ne_data | apply ne_odata | apply ne_el | apply ne_set | apply ne_bind; [|intro] ].

Ltac nes := repeat first [ progress ne | match goal with |- noexc (match ?b with _ => _ end) => destruct b end
  | apply ne_fun | progress cbv zeta ].

Lemma alloc_ne name ns p : noexc (alloc_el name ns p).
Proof. unfold alloc_el. ne. intros s x s' E. discriminate. Qed.
Lemma create_exc tag ns p s x s' : create_internal tag ns p s = Exc x s' -> c_els s' = c_els s.
Proof.
  unfold create_internal. unfold bind at 1. destruct (s_data tag s) as [d s1|y s1|] eqn:E; [|exfalso; exact (ne_data _ _ _ _ E)|discriminate].
  apply es_data in E. destruct d as [|c d].
  - intro H. injection H as _ <-. exact E.
  - intro H. exfalso. revert H. match goal with |- ?m s1 = _ -> False => enough (noexc m) as Q by (apply Q) end.
    ne; [|intros s2 x2 s3 Z; discriminate]. destruct (bytes_eqb a svg_ns); ne.
Qed.

Definition fails_late (o : sop) : bool := match o with SElement _ | SElementNS _ _ => true | _ => false end.
Lemma no_fail o : fails_late o = false -> noexc (sexec o).
Proof.
  intro F.
  destruct o; try discriminate; cbn [sexec];
      unfold done, str, destroy_el, copy_el, free_ctl, copy_ctl, set_value, get_value, set_default, get_default, set_text, set_attr,
        set_checked, get_checked, set_dchecked, get_dchecked; nes.
  - unfold set_title. intros s0 x0 s1 E. revert E. match goal with |- ?m s0 = _ -> False => enough (noexc m) as Q by (apply Q) end. nes.
  - unfold get_title. intros s0 x0 s1 E. revert E. match goal with |- ?m s0 = _ -> False => enough (noexc m) as Q by (apply Q) end. nes.
Qed.
Lemma exc_els o s x s' : sexec o s = Exc x s' -> c_els s' = c_els s.
Proof.
  intro H. destruct (fails_late o) eqn:F.
  - destruct o as [| | |t|ns q| | | | | | | | | | | | | |]; try discriminate; cbn [sexec] in H.
    + unfold create_element in H. unfold bind in H. destruct (create_internal t None None s) as [e s1|y s1|] eqn:E; try discriminate.
      injection H as _ <-. exact (create_exc _ _ _ _ _ _ E).
    + unfold bind at 1 in H. destruct (create_element_ns ns q s) as [e s1|y s1|] eqn:E; try discriminate. injection H as _ <-.
      revert E. unfold create_element_ns. unfold bind at 1. destruct (split q s) as [[pf l] s2|z s2|] eqn:E1; [|exfalso|discriminate].
      2:{ revert E1. match goal with |- ?m s = _ -> False => enough (noexc m) as Q by (apply Q) end. unfold split. ne.
          destruct (cut a) as [[u v]|]; ne. }
      apply es_split in E1. unfold bind at 1. cbn [fst snd]. unfold try.
      destruct (create_internal l ns pf s2) as [e s3|z s3|] eqn:E2; [| |discriminate].
      * intro H. exfalso. revert H. match goal with |- ?m s3 = _ -> False => enough (noexc m) as Q by (apply Q) end. ne.
      * apply create_exc in E2. unfold bind at 1. destruct (s_unref l s3) as [[] s4|w s4|] eqn:E3; [|exfalso; exact (ne_unref _ _ _ _ E3)|discriminate].
        apply es_unref in E3. unfold bind at 1. destruct (o_unref pf s4) as [[] s5|w s5|] eqn:E4; [|exfalso; exact (ne_ounref _ _ _ _ E4)|discriminate].
        apply es_ounref in E4. intro H. injection H as _ <-. congruence.
  - exfalso. exact (no_fail _ F _ _ _ H).
Qed.

(** The element a call works on. *)
Definition target (o : sop) : option nat :=
  match o with
  | SDestroy e | SSetValue e _ | SValue e | SSetDefault e _ | SDefault e | SSetText e _ | SAttr e _ _
  | SSetChecked e _ | SChecked e | SSetDChecked e _ | SDChecked e => Some e
  | _ => None
  end.
Definition is_value (nm : bytes) : bool := string_caseless_isequal (Some (mk_dstr false nm)) (Some (mk_dstr true n_value)).
Definition is_checked (nm : bytes) : bool := string_caseless_isequal (Some (mk_dstr false nm)) (Some (mk_dstr true n_checked)).
(** What a call does to the control it works on. *)
Definition ctl_after (s : cst) (o : sop) (c : ctl) : ctl :=
  match o, c with
  | SSetValue _ w, Input dv dvs _ _ dc dcs ck cks => Input dv dvs w true dc dcs ck cks
  | SSetValue _ w, Area dv dvs _ _ t => Area (if dvs then dv else t) true w true w
  | SValue _, Area dv _ _ false t => Area dv true t false t
  | SSetDefault _ w, Input _ _ v vs dc dcs ck cks => Input w true v vs dc dcs ck cks
  | SSetDefault _ w, Area _ _ v vs t => Area w true v vs t
  | SDefault _, Area _ false v vs t => Area t true v vs t
  | SSetText _ w, Area dv dvs v vs _ => Area dv dvs v vs w
  | SAttr _ n w, Input dv dvs v vs dc dcs ck cks =>
      let nm := match text s n with Some b => b | None => [] end in
      let dc' := if is_checked nm && negb dcs then true else dc in
      let dcs' := if is_checked nm then true else dcs in
      if is_value nm && negb dvs then Input (Some w) true v vs dc' dcs' ck cks
      else Input dv dvs v vs dc' dcs' ck cks
  | SSetChecked _ b, Input dv dvs v vs dc dcs _ _ => Input dv dvs v vs dc dcs b true
  | SSetDChecked _ b, Input dv dvs v vs _ _ ck cks => Input dv dvs v vs b true ck cks
  | _, _ => c
  end.

Lemma app_at s s' x e y : c_els s' = c_els s ++ [x] -> el_at s e = Some y -> el_at s' e = Some y.
Proof. intros E Y. unfold el_at in *. rewrite E, app_nth1; [exact Y|]. exact (el_len _ _ _ Y). Qed.
Lemma same_at s s' e : c_els s' = c_els s -> el_at s' e = el_at s e.
Proof. unfold el_at. intros ->. reflexivity. Qed.
Lemma put_at' s s' e y e' : c_els s' = put (c_els s) e y -> e < length (c_els s) ->
  el_at s' e' = if Nat.eqb e' e then y else el_at s e'.
Proof. unfold el_at. intros -> L. apply el_put. exact L. Qed.
Lemma set_els_at s e c s' : set_ctl e c s = Ok tt s' ->
  exists x, el_at s e = Some x /\ c_els s' = put (c_els s) e (Some (with_ctl x c)).
Proof.
  unfold set_ctl. destruct (el_at s e) as [x|] eqn:E; [|discriminate]. intro H. injection H as <-. exists x. split; [reflexivity|reflexivity].
Qed.
Lemma get_el_inv e s x s' : get_el e s = Ok x s' -> s' = s /\ el_at s e = Some x.
Proof. unfold get_el. destruct (el_at s e); [|discriminate]. intro H. injection H as <- <-. auto. Qed.
Lemma with_same x : with_ctl x (e_ctl x) = x.
Proof. destruct x; reflexivity. Qed.
Lemma put_same l e x : nth e l None = Some x -> put l e (Some x) = l.
Proof.
  revert e. induction l as [|a l IH]; intros e E; destruct e as [|e]; cbn [nth put] in *; try discriminate; [congruence|].
  rewrite IH; [reflexivity|exact E].
Qed.
