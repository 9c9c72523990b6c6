(** Concrete text nodes: non-vacuity, and the runs behind the refuted statements. *)
From Coq Require Import List Arith NArith Bool Lia.
From Verif Require Import Base StringSpec HeapModel HeapSpec HistModel HistProofs TreeSpec TreeProofs4 TreeWitness
  WalkModel WalkSpec WalkReach CharDataModel CharDataSpec CharDataProofs CharDataText.
Import ListNotations.

(** 1 is an element with the children 2 "ab", 3 "cd", 4 "h" e-acute, 5 a comment
    and 6 "Z"; 7 is a text node without data and 8 one with data, both parentless. *)
Definition word (t : ntype) (b : bytes) : op := OCreate 0 t (Some [35%N]) (Some b) None None.
Definition b_ab : bytes := [97; 98]%N.
Definition b_cd : bytes := [99; 100]%N.
Definition b_he : bytes := [104; 195; 169]%N.
Definition b_Z : bytes := [90]%N.
Definition words : list op :=
  [ONewDocument; new ELEMENT; word TEXT b_ab; word TEXT b_cd; word TEXT b_he; word COMMENT b_ab; word TEXT b_Z; new TEXT; word TEXT b_ab;
   OAppend 1 2; OAppend 1 3; OAppend 1 4; OAppend 1 5; OAppend 1 6].
Definition words_st : st := fst (played words).
Definition words_client : client := snd (played words).
Lemma words_reach : reach 14 words_st words_client.
Proof. apply (played_reach words); [vm_compute; reflexivity|unfold short; vm_compute; reflexivity]. Qed.
Lemma words_kids : children (s_heap words_st) 1 [2; 3; 4; 5; 6].
Proof. apply kidsn_children. vm_compute. reflexivity. Qed.
Lemma words_linked : linked words_st.
Proof. eapply reach_linked; [exact words_reach|apply demo_short; lia]. Qed.

Definition look (i : id) : option (ntype * option id * option bytes) :=
  option_map (fun n => (n_type n, n_parent n, n_value n)) (s_heap words_st i).
Lemma looks : look 1 = Some (ELEMENT, None, None) /\ look 2 = Some (TEXT, Some 1, Some b_ab) /\ look 3 = Some (TEXT, Some 1, Some b_cd) /\
  look 4 = Some (TEXT, Some 1, Some b_he) /\ look 7 = Some (TEXT, None, None).
Proof. vm_compute. repeat split. Qed.
Lemma look_type : forall i t p v, look i = Some (t, p, v) -> exists n, s_heap words_st i = Some n /\ n_type n = t /\ n_parent n = p /\ n_value n = v.
Proof. unfold look. intros i t p v E. destruct (s_heap words_st i) as [n|]; [|discriminate]. inversion E; subst. eauto. Qed.
Lemma look_text : forall i, In i [2; 3; 4; 7] -> exists n, s_heap words_st i = Some n /\ n_type n = TEXT /\ (n_parent n = None \/ n_parent n = Some 1).
Proof.
  intros i I. destruct looks as (_ & A & B & C & D). apply look_type in A as (a & A1 & A2 & A3 & _), B as (b & B1 & B2 & B3 & _),
    C as (c & C1 & C2 & C3 & _), D as (d & D1 & D2 & D3 & _).
  destruct I as [<-|[<-|[<-|[<-|[]]]]]; [exists a|exists b|exists c|exists d]; auto.
Qed.

Lemma plain_not_ro : forall i, In i [2; 3; 4; 7] -> ~ read_only (s_heap words_st) i.
Proof.
  intros i I (n & H & Q). destruct (look_text i I) as (m & Hm & T & PP). assert (m = n) by congruence; subst m.
  destruct Q as [Q|[Q|[[Q _]|(_ & a & na & A & Ha & TA)]]]; try congruence.
  destruct looks as (E & _). apply look_type in E as (e & E1 & E2 & E3 & _).
  inversion A as [|j m p Hj Pj A']; [subst a; assert (na = n) by congruence; subst na; destruct TA; congruence|].
  assert (m = n) by congruence; subst m. destruct PP as [PP|PP]; [congruence|]. assert (p = 1) by congruence. subst p.
  inversion A' as [|j' m' p' Hj' Pj' A'']; [subst a; assert (na = e) by congruence; subst na; destruct TA; congruence|congruence].
Qed.
Lemma words_editable : forall i, In i [2; 3; 4; 7] -> editable words_st i.
Proof.
  intros i I. apply (reach_editable 14 _ words_client words_reach); [apply demo_short; lia| | |apply plain_not_ro; auto].
  - simpl in I; destruct I as [<-|[<-|[<-|[<-|[]]]]]; vm_compute; reflexivity.
  - destruct (look_text i I) as (n & H & T & _). exists n; auto.
Qed.
Lemma value_says : forall i b cs, option_map n_value (s_heap words_st i) = Some (Some b) -> b = encoded cs -> says (s_heap words_st) i cs.
Proof. intros i b cs E ->. destruct (s_heap words_st i) as [n|] eqn:H; [|discriminate]. exists n. split; auto. simpl in E. inversion E as [E']. rewrite E'. reflexivity. Qed.
Lemma words_text : text [104; 233]%N /\ text [97; 98]%N /\ text [99; 100]%N.
Proof.
  repeat split; try (vm_compute; reflexivity); repeat constructor; vm_compute; intuition (try discriminate).
Qed.

Definition data_of {A} (i : id) (r : res st A) : option (option bytes) := match r with Ok _ s => option_map n_value (s_heap s i) | _ => None end.

Lemma edits_case : editable words_st 4 /\ says (s_heap words_st) 4 [104; 233]%N /\ text [104; 233]%N /\
  (exists v, get_data 4 words_st = Ok (Some v) words_st) /\
  data_of 4 (insert_data 4 1 (Some b_Z) words_st) = Some (Some (encoded [104; 90; 233]))%N /\
  data_of 4 (delete_data 4 0 1 words_st) = Some (Some (encoded [233]))%N /\
  data_of 4 (delete_data 4 1 2147483647 words_st) = Some (Some (encoded [104]))%N.
Proof.
  split; [apply words_editable; simpl; auto|]. split; [apply (value_says 4 b_he); vm_compute; reflexivity|]. split; [apply words_text|].
  split. { exists b_he. unfold get_data, bind, load. destruct (s_heap words_st 4) as [n|] eqn:H.
    - assert (V : option_map n_value (s_heap words_st 4) = Some (Some b_he)) by (vm_compute; reflexivity). rewrite H in V. simpl in V.
      unfold ret. inversion V. reflexivity.
    - exfalso. assert (livesb words_st 4 = true) by (vm_compute; reflexivity). unfold livesb in H0. rewrite H in H0. discriminate. }
  split; [vm_compute; reflexivity|]. split; vm_compute; reflexivity.
Qed.

Lemma append_null : exists k s g i, reach k s g /\ short k /\ holds g i /\ editable s i /\ append_data i (Some b_ab) s = Bad AssertFail.
Proof.
  exists 14, words_st, words_client, 7. split; [exact words_reach|]. split; [apply demo_short; lia|].
  split; [vm_compute; reflexivity|]. split; [apply words_editable; simpl; auto|vm_compute; reflexivity].
Qed.

Lemma split_case : editable words_st 4 /\ says (s_heap words_st) 4 [104; 233]%N /\ text [104; 233]%N /\
  (N.of_nat (length [104; 233]%N) < half)%N /\ (1 < N.of_nat (length [104; 233]%N))%N.
Proof.
  split; [apply words_editable; simpl; auto|]. split; [apply (value_says 4 b_he); vm_compute; reflexivity|]. split; [apply words_text|].
  split; vm_compute; reflexivity.
Qed.

Lemma split_not_inserted : exists k s g p i o r s', reach k s g /\ short k /\ holds g i /\ editable s i /\
  children (s_heap s) p [2; i; 4; 5; 6] /\
  split_text i o s = Ok r s' /\ children (s_heap s') p [2; i; 4; 5; 6] /\ parent_of (s_heap s') r = None.
Proof.
  exists 14, words_st, words_client, 1, 3, 1%N. destruct (okb_ok _ _ (split_text 3 1 words_st)) as (r & s' & E); [vm_compute; reflexivity|].
  exists r, s'. split; [exact words_reach|]. split; [apply demo_short; lia|]. split; [vm_compute; reflexivity|].
  split; [apply words_editable; simpl; auto|]. split; [exact words_kids|]. split; auto.
  assert (X : match split_text 3 1 words_st with Ok r s' => kidsn s' 1 = Some [2; 3; 4; 5; 6] /\ parent_of (s_heap s') r = None | _ => False end)
    by (vm_compute; auto).
  rewrite E in X. destruct X. split; auto. apply kidsn_children; auto.
Qed.

Lemma split_at_end : exists k s g i cs, reach k s g /\ short k /\ holds g i /\ editable s i /\ says (s_heap s) i cs /\
  split_text i (N.of_nat (length cs)) s = Exc INDEX_SIZE_ERR s.
Proof.
  exists 14, words_st, words_client, 4, [104; 233]%N. split; [exact words_reach|]. split; [apply demo_short; lia|].
  split; [vm_compute; reflexivity|]. split; [apply words_editable; simpl; auto|].
  split; [apply (value_says 4 b_he); vm_compute; reflexivity|].
  apply (split_range _ _ [104; 233]%N); [apply words_editable; simpl; auto|apply (value_says 4 b_he); vm_compute; reflexivity|apply words_text|lia].
Qed.

(** ** Adjacent text *)
Lemma run_word : forall h x b l vs, option_map (fun n => (n_type n, n_value n)) (h x) = Some (TEXT, Some b) ->
  run h l vs -> run h (x :: l) (b :: vs).
Proof.
  intros h x b l vs E R. destruct (h x) as [n|] eqn:H; [|discriminate]. simpl in E. inversion E.
  eapply run_text; eauto. Qed.
Lemma run_comment : forall h x l, type_of h x = Some COMMENT -> run h (x :: l) [].
Proof.
  intros h x l E. unfold type_of in E. destruct (h x) as [n|] eqn:H; [|discriminate]. simpl in E. inversion E. eapply run_stop; eauto.
Qed.
Lemma words_whole3 : whole (s_heap words_st) [2] [4; 5; 6] b_cd (b_ab ++ b_cd ++ b_he).
Proof.
  exists [b_ab], [b_he]. split; [|split; [|reflexivity]].
  - apply run_word; [vm_compute; reflexivity|constructor].
  - apply run_word; [vm_compute; reflexivity|]. apply run_comment. vm_compute. reflexivity.
Qed.
Lemma words_whole4 : whole (s_heap words_st) [2; 3] [5; 6] b_he (b_ab ++ b_cd ++ b_he).
Proof.
  exists [b_cd; b_ab], []. split; [|split; [|reflexivity]].
  - apply run_word; [vm_compute; reflexivity|]. apply run_word; [vm_compute; reflexivity|constructor].
  - apply run_comment. vm_compute. reflexivity.
Qed.
Lemma near_case : near (s_heap words_st) (rev [2]) /\ near (s_heap words_st) [4; 5; 6].
Proof.
  cbn [rev app near]. repeat split; try (vm_compute; discriminate); auto.
Qed.
Lemma whole_case : linked words_st /\ type_of (s_heap words_st) 1 = Some ELEMENT /\ children (s_heap words_st) 1 ([2] ++ 3 :: [4; 5; 6]) /\
  option_map n_value (s_heap words_st 3) = Some (Some b_cd) /\
  near (s_heap words_st) (rev [2]) /\ near (s_heap words_st) [4; 5; 6] /\ whole (s_heap words_st) [2] [4; 5; 6] b_cd (b_ab ++ b_cd ++ b_he).
Proof.
  split; [exact words_linked|]. split; [vm_compute; reflexivity|]. split; [exact words_kids|]. split; [vm_compute; reflexivity|].
  split; [apply near_case|]. split; [apply near_case|exact words_whole3].
Qed.
Lemma whole_misses : exists k s g p t v w w' s', reach k s g /\ short k /\ holds g t /\ children (s_heap s) p ([2; 3] ++ t :: [5; 6]) /\
  whole (s_heap s) [2; 3] [5; 6] v w /\ get_whole_text t s = Ok (Some w') s' /\ w' <> w.
Proof.
  exists 14, words_st, words_client, 1, 4, b_he, (b_ab ++ b_cd ++ b_he), (b_cd ++ b_he).
  destruct (okb_ok _ _ (get_whole_text 4 words_st)) as (r & s' & E); [vm_compute; reflexivity|]. exists s'.
  split; [exact words_reach|]. split; [apply demo_short; lia|]. split; [vm_compute; reflexivity|].
  split; [exact words_kids|]. split; [exact words_whole4|].
  assert (X : match get_whole_text 4 words_st with Ok r _ => r = Some (b_cd ++ b_he) | _ => False end) by (vm_compute; reflexivity).
  rewrite E in X. subst r. split; auto. discriminate.
Qed.
Lemma replace_whole_gone : exists k s g p t s', reach k s g /\ short k /\ holds g t /\ parent_of (s_heap s) t = Some p /\
  replace_whole_text t (Some b_Z) s = Ok t s' /\ parent_of (s_heap s') t = None.
Proof.
  exists 14, words_st, words_client, 1, 4.
  destruct (okb_ok _ _ (replace_whole_text 4 (Some b_Z) words_st)) as (r & s' & E); [vm_compute; reflexivity|]. exists s'.
  split; [exact words_reach|]. split; [apply demo_short; lia|]. split; [vm_compute; reflexivity|]. split; [vm_compute; reflexivity|].
  assert (X : match replace_whole_text 4 (Some b_Z) words_st with Ok r s' => r = 4 /\ parent_of (s_heap s') 4 = None | _ => False end)
    by (vm_compute; auto).
  rewrite E in X. destruct X as [-> X]. auto.
Qed.
Lemma replace_whole_crash : exists k s g t, reach k s g /\ short k /\ holds g t /\ editable s t /\
  replace_whole_text t (Some b_Z) s = Bad NullDeref.
Proof.
  exists 14, words_st, words_client, 7. split; [exact words_reach|]. split; [apply demo_short; lia|].
  split; [vm_compute; reflexivity|]. split; [apply words_editable; simpl; auto|]. vm_compute. reflexivity.
Qed.
