(** Selects and options, by history. *)
From Coq Require Import List Arith NArith ZArith Bool Lia.
From Verif Require Import Base HeapModel HeapSpec HeapInv HeapExec HistModel HistProofs TreeSpec TreeProofs TreeProofs4 TreeWitness WalkModel WalkSpec WalkProofs WalkReach WalkLists WalkFinds WalkWitness
  ContentWitness ChildAttrWitness HtmlModel CellModel HtmlSpec HtmlBase HtmlSelect HtmlTables HtmlReach CellSpec CellReach HtmlWitness CellWitness OptionModel OptionSpec OptionWords OptionText.
Import ListNotations.

(** ** From computation to the specification *)
Fixpoint kidsn (f : nat) (s : st) (c : option id) : option (list id) :=
  match c, f with
  | None, _ => Some []
  | Some _, O => None
  | Some i, S f => match s_heap s i with Some n => option_map (cons i) (kidsn f s (n_next n)) | None => None end
  end.
Lemma kidsn_fwd : forall f s c l, kidsn f s c = Some l -> fwd (s_heap s) c l.
Proof.
  induction f as [|f IH]; intros s [i|] l H; cbn in H; try discriminate; try (injection H as <-; constructor).
  destruct (s_heap s i) as [n|] eqn:E; [|discriminate]. destruct (kidsn f s (n_next n)) as [r|] eqn:R; [|discriminate]. injection H as <-. econstructor; eauto.
Qed.
Definition kids (s : st) (i : id) : option (list id) := match s_heap s i with Some n => kidsn 20 s (n_first n) | None => None end.
Lemma kids_ok : forall s i l, kids s i = Some l -> children (s_heap s) i l.
Proof. intros s i l H. unfold kids in H. destruct (s_heap s i) as [n|] eqn:E; [|discriminate]. exists n. split; auto. eapply kidsn_fwd; eauto. Qed.

Fixpoint shownb (f : nat) (s : st) (l : list id) : option (list bytes) :=
  match f with
  | O => None
  | S f =>
      match l with
      | [] => Some []
      | i :: r =>
          match s_heap s i, shownb f s r with
          | Some n, Some vs =>
              match n_type n with
              | TEXT | CDATA => match n_value n with Some v => Some (v :: vs) | None => Some vs end
              | COMMENT | PI => Some vs
              | ELEMENT =>
                  if skipped n then Some vs
                  else match kids s i with
                       | Some k => match shownb f s k with Some ws => Some (ws ++ vs) | None => None end
                       | None => None
                       end
              | _ => None
              end
          | _, _ => None
          end
      end
  end.
Lemma shownb_ok : forall f s l vs, shownb f s l = Some vs -> shown (s_heap s) l vs.
Proof.
  induction f as [|f IH]; intros s [|i l] vs H; cbn in H; try discriminate. { injection H as <-. constructor. }
  destruct (s_heap s i) as [n|] eqn:E; [|discriminate]. destruct (shownb f s l) as [w|] eqn:R; [|discriminate]. apply IH in R.
  destruct (n_type n) eqn:T; try discriminate.
  - destruct (skipped n) eqn:K. { injection H as <-. eapply sh_skip; eauto. right. right. split; auto. apply skipped_iff. auto. }
    destruct (kids s i) as [k|] eqn:KD; [|discriminate]. destruct (shownb f s k) as [ws|] eqn:W; [|discriminate]. injection H as <-.
    eapply sh_inside; eauto; [intros X; apply skipped_iff in X; congruence|apply kids_ok; auto].
  - destruct (n_value n) as [v|] eqn:V; injection H as <-; [eapply sh_text; eauto|eapply sh_null; eauto].
  - destruct (n_value n) as [v|] eqn:V; injection H as <-; [eapply sh_text; eauto|eapply sh_null; eauto].
  - injection H as <-. eapply sh_skip; eauto.
  - injection H as <-. eapply sh_skip; eauto.
Qed.
Definition showsb (s : st) (i : id) : option (list bytes) := match kids s i with Some k => shownb 20 s k | None => None end.
Lemma showsb_ok : forall s i vs, showsb s i = Some vs -> shows (s_heap s) i vs.
Proof. intros s i vs H. unfold showsb in H. destruct (kids s i) as [k|] eqn:K; [|discriminate]. exists k. split; [apply kids_ok; auto|eapply shownb_ok; eauto]. Qed.
Lemma shown_det : forall h l vs, shown h l vs -> forall ws, shown h l ws -> vs = ws.
Proof.
  intros h l vs S. induction S as [|i n v l vs H T V S IH|i n l vs H T V S IH|i n l vs H T S IH|i n k us l vs H T NS C S1 IH1 S2 IH2]; intros ws W; inversion W as [|i' n' v' l' w' H' T' V' S'|i' n' l' w' H' T' V' S'|i' n' l' w' H' T' S'|i' n' k' u' l' w' H' T' NS' C' S1' S2']; subst; auto;
    assert (n' = n) by congruence; subst n'; try (exfalso; intuition congruence).
  - f_equal; [congruence|auto].
  - f_equal; [|auto]. apply IH1. rewrite (children_det _ _ _ _ C C'). auto.
Qed.
Definition trimb (b : bytes) : bool := match b with [] => true | c :: _ => negb (white c) end && match rev b with [] => true | c :: _ => negb (white c) end.
Lemma trimb_ok : forall b, trimb b = true -> trim b.
Proof.
  intros b H. apply andb_prop in H as [A B]. split; intros c r ->; [apply negb_true_iff; exact A|]. rewrite rev_app_distr in B. apply negb_true_iff. exact B.
Qed.
Definition trimsb (s : st) (l : list id) : bool :=
  forallb (fun j => match s_heap s j with
                    | Some n => if ntype_eqb (n_type n) ELEMENT && negb (skipped n) then match showsb s j with Some ws => trimb (concat ws) | None => false end else true
                    | None => false
                    end) l.
Lemma trimsb_ok : forall s l, trimsb s l = true -> trims (s_heap s) l.
Proof.
  intros s l F j n ws I H T NS (k & C & S). unfold trimsb in F. rewrite forallb_forall in F. specialize (F j I). rewrite H, T in F.
  destruct (skipped n) eqn:K; [exfalso; apply NS; apply skipped_iff; auto|]. cbn in F. unfold showsb in F. destruct (kids s j) as [k'|] eqn:KD; [|discriminate].
  destruct (shownb 20 s k') as [us|] eqn:U; [|discriminate]. rewrite (children_det _ _ _ _ C (kids_ok _ _ _ KD)) in S. rewrite (shown_det _ _ _ S _ (shownb_ok _ _ _ _ U)). apply trimb_ok. exact F.
Qed.
Definition plainb (s : st) (l : list id) : bool :=
  forallb (fun x => match s_heap s x with
                    | Some n => if caseless_isequal (n_name n) (Some s_OPTION) then ntype_eqb (n_type n) ELEMENT && (if list_eq_dec N.eq_dec (no_null (n_name n)) s_OPTION then true else false) else true
                    | None => true
                    end) l.
Lemma plainb_ok : forall s l, plainb s l = true -> plainly_named (s_heap s) l.
Proof.
  intros s l F x n b I H B D. unfold plainb in F. rewrite forallb_forall in F. specialize (F x I). rewrite H in F.
  assert (E : caseless_isequal (n_name n) (Some s_OPTION) = true) by (apply caseless_iff; rewrite B; exact D). rewrite E in F. apply andb_prop in F as [F1 F2].
  split; [apply ntype_eqb_eq; auto|]. rewrite B in F2. cbn [no_null] in F2. destruct (list_eq_dec N.eq_dec b s_OPTION); [auto|discriminate].
Qed.

(** ** The page *)
(** The select 2 has the group 3 with the options 4 and 5, and the option 6; 4 is
    " x <B>y  z</B><!---><SCRIPT>...", 6 is "a<B> b</B>".  The select 16 has the
    options 17 and 18. *)
Definition s_OPTGROUP : bytes := [79; 80; 84; 71; 82; 79; 85; 80]%N.
Definition s_B : bytes := [66]%N.
Definition s_SCRIPT : bytes := [83; 67; 82; 73; 80; 84]%N.
Definition typed (t : bytes) : op := OCreate 0 TEXT None (Some t) None None.
Definition menu_ops : list op :=
  [ONewDocument; named s_HTML; named s_SELECT; named s_OPTGROUP; named s_OPTION; named s_OPTION; named s_OPTION;
   typed [97]%N; named s_B; typed [32; 98]%N; OCreate 0 COMMENT None (Some [99]%N) None None;
   typed [32; 120; 32]%N; named s_B; typed [121; 32; 32; 122]%N; OCreate 0 ELEMENT (Some s_SCRIPT) None (Some html_space) None; typed [115]%N;
   named s_SELECT; named s_OPTION; named s_OPTION;
   OAppend 0 1; OAppend 1 2; OAppend 2 3; OAppend 3 4; OAppend 3 5; OAppend 2 6; OAppend 6 7; OAppend 6 8; OAppend 8 9;
   OAppend 4 11; OAppend 4 12; OAppend 12 13; OAppend 4 10; OAppend 4 14; OAppend 14 15; OAppend 1 16; OAppend 16 17; OAppend 16 18].
Definition menu : st := fst (played menu_ops).
Definition menu_client : client := snd (played menu_ops).
Lemma menu_reach : reach 37 menu menu_client.
Proof. apply (played_reach menu_ops); [vm_compute; reflexivity|unfold short; vm_compute; reflexivity]. Qed.
Lemma menu_brief : briefly 37.
Proof. unfold briefly. vm_compute. reflexivity. Qed.
Lemma menu_short : short 37.
Proof. unfold short. vm_compute. reflexivity. Qed.
Lemma isE (i : id) : (match s_heap menu i with Some n => ntype_eqb (n_type n) ELEMENT | None => false end) = true -> exists n, s_heap menu i = Some n /\ n_type n = ELEMENT.
Proof. destruct (s_heap menu i) as [n|]; [|discriminate]. intros H. exists n. split; auto. apply ntype_eqb_eq. auto. Qed.
Lemma elem_case : forall i, (match s_heap menu i with Some n => ntype_eqb (n_type n) ELEMENT | None => false end) = true -> type_of (s_heap menu) i = Some ELEMENT.
Proof. intros i H. destruct (isE i H) as (n & A & B). unfold type_of. rewrite A. cbn. congruence. Qed.
Lemma out_ok {A} (m : M st A) s a : match m s with Ok b _ => Some b | _ => None end = Some a -> exists s', m s = Ok a s'.
Proof. destruct (m s) as [b s'|? ?|?]; try discriminate. intros E. injection E as ->. eauto. Qed.

Lemma exact_case : reach 37 menu menu_client /\ short 37 /\ type_of (s_heap menu) 4 = Some ELEMENT /\
  shows (s_heap menu) 4 [[32; 120; 32]; [121; 32; 32; 122]]%N /\ order (s_heap menu) 4 [4; 11; 12; 13; 10; 14; 15] /\ trims (s_heap menu) [11; 12; 13; 10; 14; 15].
Proof.
  split; [exact menu_reach|]. split; [exact menu_short|]. split; [apply elem_case; vm_compute; reflexivity|]. split; [apply showsb_ok; vm_compute; reflexivity|].
  split; [apply (ordn_order 10); vm_compute; reflexivity|apply trimsb_ok; vm_compute; reflexivity].
Qed.
Lemma glued_case : exists j s g e vs b s', reach j s g /\ short j /\ type_of (s_heap s) e = Some ELEMENT /\ shows (s_heap s) e vs /\
  option_text e s = Ok (Some b) s' /\ b <> tidy (concat vs).
Proof.
  destruct (out_ok (option_text 6) menu (Some [97; 98]%N)) as (s' & E); [vm_compute; reflexivity|].
  exists 37, menu, menu_client, 6, [[97]; [32; 98]]%N, [97; 98]%N, s'. split; [exact menu_reach|]. split; [exact menu_short|]. split; [apply elem_case; vm_compute; reflexivity|].
  split; [apply showsb_ok; vm_compute; reflexivity|]. split; [exact E|]. vm_compute. discriminate.
Qed.
Lemma index_case : reach 37 menu menu_client /\ briefly 37 /\ options (s_heap menu) 16 [17; 18] /\ flat (s_heap menu) 16 [17; 18] /\
  children (s_heap menu) 16 [17; 18] /\ plainly_named (s_heap menu) [17; 18] /\ nth_error [17; 18] 1 = Some 18.
Proof.
  split; [exact menu_reach|]. split; [exact menu_brief|]. split; [apply options_made; vm_compute; reflexivity|]. split; [apply flat_made; vm_compute; reflexivity|].
  split; [apply kids_ok; vm_compute; reflexivity|]. split; [apply plainb_ok; vm_compute; reflexivity|reflexivity].
Qed.
Lemma count_case : reach 37 menu menu_client /\ briefly 37 /\ children (s_heap menu) 3 ([4] ++ 5 :: []) /\ type_of (s_heap menu) 5 = Some ELEMENT /\
  names_elements s_OPTION (s_heap menu) [4] /\ option_count (s_heap menu) [4] 1.
Proof.
  split; [exact menu_reach|]. split; [exact menu_brief|]. split; [apply kids_ok; vm_compute; reflexivity|]. split; [apply elem_case; vm_compute; reflexivity|].
  split; [apply names_made; vm_compute; reflexivity|]. exists [4]. split; [|reflexivity]. apply picks_yes; [apply tagb_ok; [discriminate|discriminate|vm_compute; reflexivity]|constructor].
Qed.
Lemma group_case : exists j s g e k x y i s1 s2, reach j s g /\ briefly j /\ options (s_heap s) e k /\ In x k /\ In y k /\ x <> y /\
  option_index x s = Ok (Some i) s1 /\ option_index y s = Ok (Some i) s2.
Proof.
  destruct (out_ok (option_index 4) menu (Some 0%Z)) as (s1 & E1); [vm_compute; reflexivity|]. destruct (out_ok (option_index 6) menu (Some 0%Z)) as (s2 & E2); [vm_compute; reflexivity|].
  exists 37, menu, menu_client, 2, [4; 5; 6], 4, 6, 0%Z, s1, s2. split; [exact menu_reach|]. split; [exact menu_brief|]. split; [apply options_made; vm_compute; reflexivity|].
  split; [cbn; auto|]. split; [cbn; auto|]. split; [discriminate|]. split; [exact E1|exact E2].
Qed.
