(** The embedded files against the TeX files they are made from (wordbreak/hyphenator/languages/tex). *)
From Verif Require Import Base Unicode Utf8 Text SpecTrie Trie TrieProofs Dict SpecHyph DictProofs FileProofs Hyph HyphProofs
  Shipped PatDe PatGb PatEs PatFr PatUs SrcDe SrcGb SrcEs SrcFr SrcUs Cache Lang HyphTests ShippedProofs Strip SpecTex StripProofs.
Local Open Scope Z_scope.

(** The files of languages/tex, under the names that strip_comments.go:38 keeps. *)
Definition texSources : list (fname * list byte) :=
  [(deName, de_src_file); (gbName, gb_src_file); (esName, es_src_file); (frName, fr_src_file); (usName, us_src_file)].

Definition sourceOf (l : lang) : list byte :=
  match l with
  | BritishEnglish | English => gb_src_file
  | Spanish | EuropeanSpanish | LatinAmericanSpanish => es_src_file
  | French | CanadianFrench => fr_src_file
  | German => de_src_file
  | AmericanEnglish | OtherLang => us_src_file
  end.
Definition patternsName : str := textBytes "patterns"%text.
Definition hyphenationName : str := textBytes "hyphenation"%text.

Fixpoint listEqb {A} (eqb : A -> A -> bool) (x y : list A) : bool :=
  match x, y with
  | [], [] => true
  | a :: x', b :: y' => eqb a b && listEqb eqb x' y'
  | _, _ => false
  end.
Lemma listEqb_sound {A} (eqb : A -> A -> bool) : (forall a b, eqb a b = true -> a = b) -> forall x y, listEqb eqb x y = true -> x = y.
Proof.
  intros H. induction x as [|a x IH]; intros [|b y] E; try discriminate; [reflexivity|]. cbn [listEqb] in E.
  apply andb_true_iff in E. destruct E as [E1 E2]. f_equal; auto.
Qed.
Lemma bytes_sound x y : listEqb Z.eqb x y = true -> x = y.
Proof. apply listEqb_sound. intros a b H. now apply Z.eqb_eq. Qed.
Lemma words_sound x y : listEqb (listEqb Z.eqb) x y = true -> x = y.
Proof. apply listEqb_sound. exact bytes_sound. Qed.

Definition sourceOk (src file : list byte) : bool :=
  listEqb Z.eqb (stripFile src) file && listEqb (listEqb Z.eqb) (patternRules (scanLines file)) (texGroup patternsName (scanLines src)).
Lemma src_gb : sourceOk gb_src_file gb_file = true.
Proof. vm_compute. reflexivity. Qed.
Lemma src_es : sourceOk es_src_file es_file = true.
Proof. vm_compute. reflexivity. Qed.
Lemma src_fr : sourceOk fr_src_file fr_file = true.
Proof. vm_compute. reflexivity. Qed.
Lemma src_de : sourceOk de_src_file de_file = true.
Proof. vm_compute. reflexivity. Qed.
Lemma src_us : sourceOk us_src_file us_file = true.
Proof. vm_compute. reflexivity. Qed.
Lemma src_lang l : sourceOk (sourceOf l) (fileOf l) = true.
Proof. destruct l; cbn [fileOf sourceOf];
  match goal with
  | |- context [gb_file] => exact src_gb
  | |- context [es_file] => exact src_es
  | |- context [fr_file] => exact src_fr
  | |- context [de_file] => exact src_de
  | |- context [us_file] => exact src_us
  end. Qed.
Lemma lang_source l : In (langToPattern l, sourceOf l) texSources.
Proof. unfold texSources. destruct l; cbn [langToPattern sourceOf In]; tauto. Qed.

Definition excOk (src file : list byte) : bool :=
  listEqb (listEqb Z.eqb) (exceptionRules (scanLines file)) (texGroup hyphenationName (scanLines src)).
Lemma exs_es : excOk es_src_file es_file = true.
Proof. vm_compute. reflexivity. Qed.
Lemma exs_fr : excOk fr_src_file fr_file = true.
Proof. vm_compute. reflexivity. Qed.
Lemma exs_de : excOk de_src_file de_file = true.
Proof. vm_compute. reflexivity. Qed.
Lemma exs_us : excOk us_src_file us_file = true.
Proof. vm_compute. reflexivity. Qed.
Lemma exc_lang l : british l = false -> excOk (sourceOf l) (fileOf l) = true /\ exists n, checkExceptions (scanLines (fileOf l)) = Some n.
Proof. intros Hl. destruct l; try discriminate; cbn [fileOf sourceOf];
  match goal with
  | |- context [es_file] => split; [exact exs_es|exists 0; exact exc_es]
  | |- context [fr_file] => split; [exact exs_fr|exists 0; exact exc_fr]
  | |- context [de_file] => split; [exact exs_de|exists 0; exact exc_de]
  | |- context [us_file] => split; [exact exs_us|exists 14; exact exc_us]
  end. Qed.

Lemma tex_patterns u l : knows u -> exists src, In (langToPattern l, src) texSources /\ openFile (langToPattern l) = Some (stripFile src) /\
  exists ps : list pattern, map pText ps = texGroup patternsName (scanLines src) /\ zlen ps = patternCount l /\
    Forall (okPattern u) ps /\ NoDup (map pKey ps) /\
    (forall name k, get (d_patterns (loadFile u name (stripFile src))) k = lastRule k (map pRule ps)).
Proof.
  intros Hu. exists (sourceOf l). split; [apply lang_source|]. pose proof (src_lang l) as S. unfold sourceOk in S. apply andb_true_iff in S.
  destruct S as [S1 S2]. apply bytes_sound in S1. apply words_sound in S2. rewrite S1. split; [apply open_lang|].
  destruct (patterns_checked u [] (fileOf l) _ Hu (check_lang l)) as (ps & H1 & H2 & H3 & H4 & H5 & H6).
  exists ps. split; [now rewrite H5, S2|]. repeat (split; [assumption|]). intros name k.
  rewrite <- (H6 k). unfold loadFile. rewrite !(fun n => proj1 (loadLines_spec u n (scanLines (fileOf l))) k). reflexivity.
Qed.
Lemma tex_exceptions u l : british l = false -> exists src, In (langToPattern l, src) texSources /\ openFile (langToPattern l) = Some (stripFile src) /\
  exists es : list (list rune * list (list rune)), map excText es = texGroup hyphenationName (scanLines src) /\ Forall okExc es /\ NoDup (map eKey es) /\
    (forall name k, k <> [] -> get (d_exceptions (loadFile u name (stripFile src))) k = lastRule k (map eRule es)).
Proof.
  intros Hl. exists (sourceOf l). split; [apply lang_source|]. pose proof (src_lang l) as S. unfold sourceOk in S. apply andb_true_iff in S.
  destruct S as [S1 _]. apply bytes_sound in S1. rewrite S1. split; [apply open_lang|].
  destruct (exc_lang l Hl) as (E & n & Hn). apply words_sound in E.
  destruct (exceptions_checked u [] (fileOf l) _ Hn) as (es & _ & H1 & H2 & H4 & H3). exists es. split; [now rewrite H4, E|].
  split; [exact H1|]. split; [exact H2|]. intros name k Hk. rewrite <- (H3 k Hk). unfold loadFile.
  rewrite !(fun n => proj2 (loadLines_spec u n (scanLines (fileOf l))) k Hk). reflexivity.
Qed.
