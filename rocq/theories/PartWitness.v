(** A table with its parts, by history. *)
From Coq Require Import List Arith NArith ZArith Bool Lia.
From Verif Require Import Base HeapModel HeapSpec HeapInv HeapExec HistModel HistProofs TreeSpec TreeProofs TreeProofs4 TreeWitness WalkModel WalkSpec WalkProofs WalkReach WalkLists WalkFinds WalkWitness ContentWitness
  HtmlModel HtmlSpec HtmlBase HtmlSelect HtmlTables HtmlReach HtmlWitness OptionWitness CellModel PartModel PartSpec PartProofs FormWitness.
Import ListNotations.

(** In the document 0: 2 a table with the caption 3, the head 4 and the foot 5; 6 a
    caption in no table; 7 an empty table; 8 a head and 9 a foot in no table.  11 a
    caption of the document 10. *)
Definition tab_ops : list op :=
  [ONewDocument; named s_HTML; named s_TABLE; named s_CAPTION; named s_THEAD; named s_TFOOT; named s_CAPTION; named s_TABLE; named s_THEAD; named s_TFOOT;
   ONewDocument; OCreate 10 ELEMENT (Some s_CAPTION) None None None; OAppend 0 1; OAppend 1 2; OAppend 2 3; OAppend 2 4; OAppend 2 5; OAppend 1 7].
Definition tab : st := fst (played tab_ops).
Definition tab_client : client := snd (played tab_ops).
Lemma tab_reach : reach 18 tab tab_client.
Proof. apply (played_reach tab_ops); [vm_compute; reflexivity|unfold short; vm_compute; reflexivity]. Qed.
Lemma tab_brief : briefly 18.
Proof. unfold briefly. vm_compute. reflexivity. Qed.
Lemma tab_editable : forall i, In i [2; 7] -> ~ read_only (s_heap tab) i.
Proof. apply (writable_all tab tab_client 18); [exact tab_reach|unfold short; vm_compute; reflexivity|vm_compute; reflexivity]. Qed.
Fixpoint firstb (name : bytes) (s : st) (l : list id) : option id :=
  match l with [] => None | x :: l => if tagb true name s x then Some x else firstb name s l end.
Lemma firstb_ok : forall s (name : bytes) l, name <> [] -> name <> [42%N] -> first_that (part name (s_heap s)) l (firstb name s l).
Proof.
  intros s name l N1 N2. induction l as [|x l IH]; cbn; [constructor|]. destruct (tagb true name s x) eqn:E; [apply ft_here; apply part_made; auto|apply ft_next; auto; apply part_not; auto].
Qed.
Lemma its_made : forall (name : bytes) s e l o, name <> [] -> name <> [42%N] -> type_of (s_heap s) e = Some ELEMENT -> children (s_heap s) e l -> firstb name s l = o -> its name (s_heap s) e o.
Proof. intros name s e l o N1 N2 T C <-. split; [exact T|]. exists l. split; auto. apply firstb_ok; auto. Qed.
Lemma tab_kids : children (s_heap tab) 2 [3; 4; 5] /\ children (s_heap tab) 7 [].
Proof. split; apply kidsn_children; vm_compute; reflexivity. Qed.
Lemma tab_parts : its s_CAPTION (s_heap tab) 2 (Some 3) /\ its s_THEAD (s_heap tab) 2 (Some 4) /\ its s_TFOOT (s_heap tab) 2 (Some 5) /\
  its s_CAPTION (s_heap tab) 7 None /\ its s_THEAD (s_heap tab) 7 None /\ its s_TFOOT (s_heap tab) 7 None.
Proof.
  destruct tab_kids as [K1 K2]. split; [|split; [|split; [|split; [|split]]]].
  1-3: refine (its_made _ tab 2 [3; 4; 5] _ _ _ _ K1 _); [discriminate|discriminate|vm_compute; reflexivity|vm_compute; reflexivity].
  all: refine (its_made _ tab 7 [] _ _ _ _ K2 _); [discriminate|discriminate|vm_compute; reflexivity|vm_compute; reflexivity].
Qed.
Lemma tab_free : part s_CAPTION (s_heap tab) 6 /\ part s_THEAD (s_heap tab) 8 /\ part s_TFOOT (s_heap tab) 9 /\ part s_CAPTION (s_heap tab) 11.
Proof. split; [|split; [|split]]; (apply part_made; [discriminate|discriminate|vm_compute; reflexivity]). Qed.
Lemma tab_holds : holds tab_client 2 /\ holds tab_client 6 /\ holds tab_client 7 /\ holds tab_client 9 /\ holds tab_client 11.
Proof. repeat split; vm_compute; reflexivity. Qed.
Lemma no_anc : forall s x i q, x <> i -> parent_of (s_heap s) i = q -> match q with Some p => ~ anc (s_heap s) x p | None => True end -> ~ anc (s_heap s) x i.
Proof. intros s x i q NE P K A. inversion A as [|i' n p H PN A']; subst; [congruence|]. unfold parent_of in K. rewrite H, PN in K. contradiction. Qed.
Lemma tab_apart : ~ anc (s_heap tab) 3 6 /\ ~ anc (s_heap tab) 3 11.
Proof. split; (refine (no_anc tab _ _ None _ _ I); [discriminate|vm_compute; reflexivity]). Qed.
Lemma tab_one : forall l y, children (s_heap tab) 2 l -> In y l -> part s_CAPTION (s_heap tab) y -> y = 3 \/ y = 6.
Proof.
  intros l y C Y P. destruct tab_kids as [K _]. rewrite (TreeProofs3.children_det _ _ _ _ C K) in Y. destruct Y as [<-|[<-|[<-|[]]]]; [auto| |];
    (exfalso; refine (part_not tab s_CAPTION _ _ _ _ P); [discriminate|discriminate|vm_compute; reflexivity]).
Qed.
(** The calls on it. *)
Lemma tab_runs : (exists s', set_caption 7 (Some 6) tab = Ok tt s') /\ (exists s', set_foot 7 (Some 9) tab = Ok tt s') /\ (exists s', set_caption 2 (Some 6) tab = Ok tt s') /\
  (exists s', set_head 7 (Some 6) tab = Ok tt s').
Proof. split; [|split; [|split]]; apply (out_ok _ tab tt); vm_compute; reflexivity. Qed.
(** A caption of another document. *)
Lemma wrong_exc : forall (r : res st unit) s1 o (P : st -> Prop), match r with Exc WRONG_DOCUMENT_ERR _ => true | _ => false end = true ->
  match o with Some y => r = Exc y s1 | None => exists s', r = Ok tt s' /\ P s' end -> r = Exc WRONG_DOCUMENT_ERR s1.
Proof. intros r s1 o P V Q. destruct o as [y|]; [subst r; destruct y; try discriminate; reflexivity|]. destruct Q as (s' & -> & _). discriminate. Qed.
Lemma caption_lost : exists j s g e x c s', reach j s g /\ briefly j /\ holds g e /\ holds g c /\ its s_CAPTION (s_heap s) e (Some x) /\ part s_CAPTION (s_heap s) c /\
  set_caption e (Some c) s = Exc WRONG_DOCUMENT_ERR s' /\ taken s x s'.
Proof.
  destruct part_names as (N1 & _). destruct tab_holds as (H1 & _ & _ & _ & H2). destruct tab_parts as (P1 & _). destruct tab_free as (_ & _ & _ & F). destruct tab_apart as [_ A].
  destruct (reach_set_old s_CAPTION N1 18 tab tab_client 2 tab_reach tab_brief s_CAPTION N1 3 11 P1 (tab_editable 2 ltac:(cbn; tauto)) F A H1 H2) as (s1 & o & TK & _ & Q).
  assert (V : match set_part s_CAPTION s_CAPTION 2 (Some 11) tab with Exc WRONG_DOCUMENT_ERR _ => true | _ => false end = true) by (vm_compute; reflexivity).
  exists 18, tab, tab_client, 2, 3, 11, s1.
  pose proof (wrong_exc (set_part s_CAPTION s_CAPTION 2 (Some 11) tab) s1 o (put_last s1 2 11) V Q) as Z. unfold set_caption.
  exact (conj tab_reach (conj tab_brief (conj H1 (conj H2 (conj P1 (conj F (conj Z TK))))))).
Qed.
