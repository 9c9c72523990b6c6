(** Properties C34 and C35: strings.  Nothing but theorems about the model
    (StringModel) in the terms of StringSpec, closed by the lemmas of
    StringProofs, and concrete cases.  [unit] states: string functions change
    no state, so any type would do. *)
From Coq Require Import List Arith NArith Bool Lia.
From Verif Require Import Base Utf8Model StringModel StringSpec StringProofs.
Import ListNotations.
Local Open Scope N_scope.

(** ** C34 *)

Theorem C34_length cs : text cs ->
  string_length (encoded cs) tt = Ok (N.of_nat (length cs)) tt.
Proof. exact (string_length_ok cs tt). Qed.

Theorem C34_at cs i : text cs -> i + 1 < two32 ->
  string_at (encoded cs) i tt =
    match nth_error cs (N.to_nat i) with
    | Some c => Ok (Some c) tt
    | None => Exc DOMSTRING_SIZE_ERR tt
    end.
Proof. exact (string_at_ok cs i tt). Qed.

Theorem C34_index cs c : text cs ->
  (forall i, first_at cs c i ->
     string_index (encoded cs) c tt = Ok (N.of_nat i) tt /\
     string_at (encoded cs) (N.of_nat i) tt = Ok (Some c) tt) /\
  (~ In c cs -> string_index (encoded cs) c tt = Ok NOPOS tt).
Proof.
  exact (fun T => conj (fun i F => conj (string_index_found cs c i tt T F) (at_index cs c i tt T F))
                       (string_index_absent cs c tt T)).
Qed.

Theorem C34_substr cs i1 i2 : text cs -> i1 < two32 -> i2 < two32 ->
  string_substr (encoded cs) i1 i2 tt =
    if (i1 <=? i2) && (i2 <=? N.of_nat (length cs))
    then Ok (encoded (slice (N.to_nat i1) (N.to_nat i2) cs)) tt
    else Exc NO_MEM_ERR tt.
Proof. exact (string_substr_ok cs i1 i2 tt). Qed.

Theorem C34_insert cs src i : text cs -> i < two32 ->
  string_insert (encoded cs) (encoded src) i tt =
    if i <=? N.of_nat (length cs)
    then Ok (encoded (firstn (N.to_nat i) cs) ++ encoded src ++ encoded (skipn (N.to_nat i) cs)) tt
    else Exc INDEX_SIZE_ERR tt.
Proof. exact (string_insert_ok cs (encoded src) i tt). Qed.

Theorem C34_replace cs src i1 i2 : text cs -> i1 < two32 -> i2 < two32 ->
  string_replace (encoded cs) (encoded src) i1 i2 tt =
    if (i1 <=? i2) && (i2 <=? N.of_nat (length cs))
    then Ok (encoded (firstn (N.to_nat i1) cs) ++ encoded src ++ encoded (skipn (N.to_nat i2) cs)) tt
    else Exc NO_MEM_ERR tt.
Proof. exact (string_replace_ok cs (encoded src) i1 i2 tt). Qed.

Theorem C34_insert_then_delete cs src i : text cs -> text src ->
  N.of_nat (length (encoded cs) + length (encoded src)) < two32 ->
  i <= N.of_nat (length cs) ->
  exists mid,
    string_insert (encoded cs) (encoded src) i tt = Ok mid tt /\
    string_replace mid (encoded []) i (i + N.of_nat (length src)) tt = Ok (encoded cs) tt.
Proof. exact (insert_delete cs src i tt). Qed.

Theorem C34_concat (a b c : list N) :
  string_concat (Some (encoded a)) (Some (encoded b)) tt = Ok (encoded (a ++ b)) tt /\
  string_concat (Some (encoded (a ++ b))) (Some (encoded c)) tt =
  string_concat (Some (encoded a)) (Some (encoded (b ++ c))) tt /\
  string_concat (Some (encoded a)) (Some (encoded [])) tt = Ok (encoded a) tt /\
  string_concat (Some (encoded [])) (Some (encoded a)) tt = Ok (encoded a) tt.
Proof.
  unfold string_concat, ret. rewrite !encoded_app, app_assoc, app_nil_r. repeat split.
Qed.

(** rindex should return the last position.  It returns the position after it,
    and gives up near the start of the string. *)
Theorem C34_rindex_refuted :
  exists cs c i, text cs /\ last_at cs c i /\
    string_rindex (encoded cs) c tt = Ok (N.of_nat i + 1) tt.
Proof.
  exists [97; 98], 98, 1%nat. split; [|split].
  - split; [repeat constructor; cbv; intuition discriminate|reflexivity].
  - exists [97], []. repeat split. intros H; destruct H.
  - reflexivity.
Qed.

Theorem C34_rindex_gives_up_refuted :
  exists cs c i, text cs /\ last_at cs c i /\
    string_rindex (encoded cs) c tt = Ok NOPOS tt.
Proof.
  exists [97; 98], 97, 0%nat. split; [|split].
  - split; [repeat constructor; cbv; intuition discriminate|reflexivity].
  - exists [], [98]. repeat split. intros [H|H]; [discriminate|destruct H].
  - reflexivity.
Qed.

(** What it does return, past the first four bytes: one too many. *)
Theorem C34_rindex_partial cs c i : text cs -> last_at cs c i ->
  (4 <= length (encoded (firstn i cs)))%nat ->
  string_rindex (encoded cs) c tt = Ok (N.of_nat i + 1) tt.
Proof. exact (string_rindex_ok cs c i tt). Qed.

(** A case with characters of one, two, three and four bytes. *)
Definition sample : list N := [97; 233; 8364; 128512; 97; 233].

Example sample_text : text sample.
Proof. split; [repeat constructor; cbv; intuition discriminate|reflexivity]. Qed.

Example sample_bytes :
  encoded sample = [97; 195; 169; 226; 130; 172; 240; 159; 152; 128; 97; 195; 169].
Proof. reflexivity. Qed.

Example sample_first : first_at sample 233 1.
Proof. exists [97], [8364; 128512; 97; 233]. repeat split. intros [H|H]; [discriminate|destruct H]. Qed.

Example sample_last : last_at sample 97 4 /\ (4 <= length (encoded (firstn 4 sample)))%nat.
Proof.
  split; [|cbv; lia]. exists [97; 233; 8364; 128512], [233]. repeat split.
  intros [H|H]; [discriminate|destruct H].
Qed.

Example sample_ops :
  string_length (encoded sample) tt = Ok 6 tt /\
  string_substr (encoded sample) 1 3 tt = Ok (encoded [233; 8364]) tt /\
  string_insert (encoded sample) (encoded [8364]) 2 tt = Ok (encoded [97; 233; 8364; 8364; 128512; 97; 233]) tt /\
  string_replace (encoded sample) (encoded [98]) 3 5 tt = Ok (encoded [97; 233; 8364; 98; 233]) tt /\
  string_rindex (encoded sample) 97 tt = Ok 5 tt.
Proof. repeat split. Qed.

(** Outside the property: on malformed UTF-8, at() leaves the buffer. *)
Example at_malformed : string_at [226] 1 tt = Bad OutOfBounds.
Proof. reflexivity. Qed.

(** ** C35 *)

(** Equality is equality of contents, whatever the representation; NULL is the
    empty string. *)
Theorem C35_isequal s1 s2 :
  string_isequal s1 s2 = true <-> d_bytes (or_empty s1) = d_bytes (or_empty s2).
Proof. exact (string_isequal_iff s1 s2). Qed.

Theorem C35_isequal_equivalence :
  (forall s, string_isequal s s = true) /\
  (forall s t, string_isequal s t = true -> string_isequal t s = true) /\
  (forall s t u, string_isequal s t = true -> string_isequal t u = true -> string_isequal s u = true) /\
  (forall i, string_isequal None (Some (mk_dstr i [])) = true) /\
  (forall i j b, string_isequal (Some (mk_dstr i b)) (Some (mk_dstr j b)) = true).
Proof.
  repeat split; intros; rewrite ?string_isequal_iff in *; cbn [or_empty d_bytes] in *; congruence.
Qed.

Theorem C35_caseless s1 s2 :
  string_caseless_isequal s1 s2 = true <->
  Forall2 same_but_case (d_bytes (or_empty s1)) (d_bytes (or_empty s2)).
Proof. exact (string_caseless_iff s1 s2). Qed.

Theorem C35_caseless_equivalence :
  (forall s, string_caseless_isequal s s = true) /\
  (forall s t, string_caseless_isequal s t = true -> string_caseless_isequal t s = true) /\
  (forall s t u, string_caseless_isequal s t = true -> string_caseless_isequal t u = true ->
     string_caseless_isequal s u = true) /\
  (forall s t, string_isequal s t = true -> string_caseless_isequal s t = true).
Proof. exact (conj caseless_refl (conj caseless_sym (conj caseless_trans isequal_caseless))). Qed.

Theorem C35_hash a b : string_isequal (Some a) (Some b) = true ->
  string_hash (Some a) tt = string_hash (Some b) tt.
Proof. exact (hash_equal a b tt). Qed.

(** The hash of a byte string is a 32-bit number. *)
Theorem C35_hash_word a : Forall (fun c => c < 256) (d_bytes a) ->
  exists w, string_hash (Some a) tt = Ok w tt /\ w < 4294967296.
Proof. exact (hash_word a tt). Qed.

(** NULL equals the empty string but cannot be hashed. *)
Theorem C35_null_hash :
  string_isequal None (Some (mk_dstr false [])) = true /\
  string_hash (Some (mk_dstr false [])) tt = Ok 2166136261 tt /\
  string_hash None tt = Bad NullDeref.
Proof. repeat split. Qed.

Theorem C35_toupper d : exists u,
  string_toupper (Some d) true tt = Ok u tt /\
  string_caseless_isequal (Some u) (Some d) = true /\
  Forall (fun c => ~ lower_ascii c) (d_bytes u) /\
  d_interned u = d_interned d /\
  string_toupper (Some u) true tt = Ok u tt.
Proof. exact (toupper_ok d tt). Qed.

Theorem C35_tolower d : exists u,
  string_tolower (Some d) true tt = Ok u tt /\
  string_caseless_isequal (Some u) (Some d) = true /\
  Forall (fun c => ~ upper_ascii c) (d_bytes u) /\
  d_interned u = d_interned d /\
  string_tolower (Some u) true tt = Ok u tt.
Proof. exact (tolower_ok d tt). Qed.

Theorem C35_whitespace d (leading trailing collapse : bool) :
  exists a b t,
    (if leading then stripped_front (d_bytes d) a else a = d_bytes d) /\
    (if collapse then collapsed a b else b = a) /\
    (if trailing then stripped_back b t else t = b) /\
    string_whitespace_op (Some d) leading trailing collapse tt = Ok (mk_dstr (d_interned d) t) tt.
Proof. exact (whitespace_op_ok d leading trailing collapse tt). Qed.

(** " a \t\nB " *)
Definition sample2 : dstr := mk_dstr true [32; 97; 32; 9; 10; 66; 32].

Example sample2_ops :
  string_whitespace_op (Some sample2) true true true tt = Ok (mk_dstr true [97; 32; 66]) tt /\
  string_whitespace_op (Some sample2) false true false tt = Ok (mk_dstr true [32; 97; 32; 9; 10; 66]) tt /\
  string_isequal (Some sample2) (Some (mk_dstr false (d_bytes sample2))) = true /\
  string_isequal (Some sample2) (Some (mk_dstr true [97])) = false /\
  string_caseless_isequal (Some sample2) (Some (mk_dstr false [32; 65; 32; 9; 10; 98; 32])) = true /\
  string_hash (Some sample2) tt <> string_hash (Some (mk_dstr true [97])) tt.
Proof. repeat split. vm_compute. discriminate. Qed.

Definition string_theorems :=
  (C34_length, C34_at, C34_index, C34_substr, C34_insert, C34_replace, C34_insert_then_delete,
   C34_concat, C34_rindex_refuted, C34_rindex_gives_up_refuted, C34_rindex_partial,
   C35_isequal, C35_isequal_equivalence, C35_caseless, C35_caseless_equivalence, C35_hash,
   C35_null_hash, C35_toupper, C35_tolower, C35_whitespace).
Print Assumptions string_theorems.
