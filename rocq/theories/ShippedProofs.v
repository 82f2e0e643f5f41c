(** The embedded files pass the checker. *)
From Verif Require Import Base Unicode Utf8 Text SpecTrie Trie TrieProofs Dict SpecHyph DictProofs FileProofs Hyph HyphProofs
  Shipped PatDe PatGb PatEs PatFr PatUs Cache Lang HyphTests.
Local Open Scope Z_scope.

Definition patternCount (l : lang) : Z :=
  match l with
  | BritishEnglish | English => 8527
  | Spanish | EuropeanSpanish | LatinAmericanSpanish => 4694
  | French | CanadianFrench => 1145
  | German => 26377
  | AmericanEnglish | OtherLang => 4938
  end.
Lemma check_gb : checkPatterns (scanLines gb_file) = Some (patternCount English).
Proof. vm_compute. reflexivity. Qed.
Lemma check_es : checkPatterns (scanLines es_file) = Some (patternCount Spanish).
Proof. vm_compute. reflexivity. Qed.
Lemma check_fr : checkPatterns (scanLines fr_file) = Some (patternCount French).
Proof. vm_compute. reflexivity. Qed.
Lemma check_de : checkPatterns (scanLines de_file) = Some (patternCount German).
Proof. vm_compute. reflexivity. Qed.
Lemma check_us : checkPatterns (scanLines us_file) = Some (patternCount OtherLang).
Proof. vm_compute. reflexivity. Qed.

Definition fileOf (l : lang) : list byte :=
  match l with
  | BritishEnglish | English => gb_file
  | Spanish | EuropeanSpanish | LatinAmericanSpanish => es_file
  | French | CanadianFrench => fr_file
  | German => de_file
  | AmericanEnglish | OtherLang => us_file
  end.
Lemma open_gb : openFile gbName = Some gb_file.
Proof. reflexivity. Qed.
Lemma open_es : openFile esName = Some es_file.
Proof. reflexivity. Qed.
Lemma open_fr : openFile frName = Some fr_file.
Proof. reflexivity. Qed.
Lemma open_de : openFile deName = Some de_file.
Proof. reflexivity. Qed.
Lemma open_us : openFile usName = Some us_file.
Proof. reflexivity. Qed.
Lemma open_lang l : openFile (langToPattern l) = Some (fileOf l).
Proof. destruct l; cbn [fileOf patternCount langToPattern];
  match goal with
  | |- context [gbName] => exact open_gb
  | |- context [esName] => exact open_es
  | |- context [frName] => exact open_fr
  | |- context [deName] => exact open_de
  | |- context [usName] => exact open_us
  end. Qed.
Lemma check_lang l : checkPatterns (scanLines (fileOf l)) = Some (patternCount l).
Proof. destruct l; cbn [fileOf patternCount langToPattern];
  match goal with
  | |- context [gb_file] => exact check_gb
  | |- context [es_file] => exact check_es
  | |- context [fr_file] => exact check_fr
  | |- context [de_file] => exact check_de
  | |- context [us_file] => exact check_us
  end. Qed.

Lemma lang_patterns u l : knows u -> exists bs, openFile (langToPattern l) = Some bs /\
  exists ps : list pattern, zlen ps = patternCount l /\ Forall (okPattern u) ps /\
    Forall (fun p => Forall (fun i => toLower u (snd i) = snd i) (fst p)) ps /\
    NoDup (map pKey ps) /\
    (forall name k, get (d_patterns (loadFile u name bs)) k = lastRule k (map pRule ps)).
Proof.
  intros Hu. exists (fileOf l). split; [apply open_lang|].
  destruct (patterns_checked u [] (fileOf l) _ Hu (check_lang l)) as (ps & H1 & H2 & H3 & H4 & H5 & H6).
  exists ps. repeat (split; [assumption|]). intros name k.
  destruct (patterns_checked u name (fileOf l) _ Hu (check_lang l)) as (ps' & _ & _ & H3' & _ & H5' & H6').
  rewrite <- (H6 k). unfold loadFile. rewrite !(fun n => proj1 (loadLines_spec u n (scanLines (fileOf l))) k). reflexivity.
Qed.

Lemma lang_wellFormed u l bs name : knows u -> openFile (langToPattern l) = Some bs -> wellFormed (loadFile u name bs).
Proof. intros Hu. rewrite open_lang. intros [= <-]. eapply shipped_wellFormed; [exact Hu|apply check_lang]. Qed.

Lemma exc_gb : checkExceptions (removelast (scanLines gb_file)) = Some 7.
Proof. vm_compute. reflexivity. Qed.
Lemma exc_es : checkExceptions (scanLines es_file) = Some 0.
Proof. vm_compute. reflexivity. Qed.
Lemma exc_fr : checkExceptions (scanLines fr_file) = Some 0.
Proof. vm_compute. reflexivity. Qed.
Lemma exc_de : checkExceptions (scanLines de_file) = Some 0.
Proof. vm_compute. reflexivity. Qed.
Lemma exc_us : checkExceptions (scanLines us_file) = Some 14.
Proof. vm_compute. reflexivity. Qed.

Definition british (l : lang) : bool := match l with BritishEnglish | English => true | _ => false end.
Lemma lang_exceptions u l : british l = false -> exists bs, openFile (langToPattern l) = Some bs /\
  exists es : list (list rune * list (list rune)), Forall okExc es /\ NoDup (map eKey es) /\
    (forall name k, k <> [] -> get (d_exceptions (loadFile u name bs)) k = lastRule k (map eRule es)).
Proof.
  intros Hl. exists (fileOf l). split; [apply open_lang|].
  assert (exists n, checkExceptions (scanLines (fileOf l)) = Some n) as [n Hn].
  { destruct l; try discriminate; cbn [fileOf]; match goal with
    | |- context [es_file] => exists 0; exact exc_es
    | |- context [fr_file] => exists 0; exact exc_fr
    | |- context [de_file] => exists 0; exact exc_de
    | |- context [us_file] => exists 14; exact exc_us
    end. }
  destruct (exceptions_checked u [] (fileOf l) _ Hn) as (es & _ & H1 & H2 & _ & H3). exists es. split; [exact H1|]. split; [exact H2|].
  intros name k Hk. rewrite <- (H3 k Hk). unfold loadFile.
  rewrite !(fun n => proj2 (loadLines_spec u n (scanLines (fileOf l))) k Hk). reflexivity.
Qed.

(** C39 on the embedded files *)
Lemma greatest_rules (f g : list rune -> option (list Z)) w j m : (forall k, f k = g k) -> greatest f w j m -> greatest g w j m.
Proof.
  intros H (H1 & H2 & H3).
  assert (forall v, gives f w j v <-> gives g w j v) as Hg.
  { intros v. unfold gives. split; intros (pre & k & post & dg & A & B & C & D); exists pre, k, post, dg;
    [rewrite <- H|rewrite H]; tauto. }
  repeat split.
  - intros v Hv. apply H1, Hg, Hv.
  - exact H2.
  - destruct H3 as [H3|H3]; [left; exact H3|right; apply Hg, H3].
Qed.
Lemma lang_liang u l : knows u -> exists bs (ps : list pattern), openFile (langToPattern l) = Some bs /\
  map pText ps = patternRules (scanLines bs) /\
  forall name w, Forall (fun r => isHyphenRune r = false) w -> 4 <= zlen w <= 29 ->
    isException (loadFile u name bs) w = None ->
    exists allowed : nat -> bool,
      (forall i, (0 < i)%nat -> 2 <= zlen w - Z.of_nat i ->
         exists m, greatest (fun k => lastRule k (map pRule ps)) (dotted (map (toLower u) w)) (S i) m /\ allowed i = Z.odd m) /\
      breakWord u (loadFile u name bs) defaultHopts w = Ret (cutAt w 0 (keep allowed 2 2 (length w))).
Proof.
  intros Hu. destruct (patterns_checked u [] (fileOf l) _ Hu (check_lang l)) as (ps & _ & _ & _ & _ & H5 & H6).
  exists (fileOf l), ps. split; [apply open_lang|]. split; [exact H5|]. intros name w Hh Hw Hx.
  assert (forall k, get (d_patterns (loadFile u name (fileOf l))) k = lastRule k (map pRule ps)) as G.
  { intros k. rewrite <- (H6 k). unfold loadFile. rewrite !(fun n => proj1 (loadLines_spec u n (scanLines (fileOf l))) k). reflexivity. }
  destruct (breakWord_liang u (loadFile u name (fileOf l)) defaultHopts w) as (al & Ha & E); try (cbn; lia).
  - apply (lang_wellFormed u l); [exact Hu|apply open_lang].
  - unfold containsHyphen. clear - Hh. induction Hh as [|r w Hr Hw IH]; [reflexivity|]. cbn [existsb]. rewrite Hr. exact IH.
  - exact Hx.
  - exists al. split; [|exact E]. intros i Hi Hi'. destruct (Ha i Hi Hi') as (m & Hg & Hm). exists m.
    split; [|exact Hm]. eapply greatest_rules; [exact G|exact Hg].
Qed.
Lemma lang_embedded l : exists bs, openFile (langToPattern l) = Some bs /\ In (langToPattern l, bs) texFS.
Proof. exists (fileOf l). split; [apply open_lang|]. unfold texFS. destruct l; cbn [langToPattern fileOf In]; tauto. Qed.
