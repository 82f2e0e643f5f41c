(** ESC [ p1 ; ... ; pn m with parameters of any number of digits: when it is read as formatting (C23). *)
From Verif Require Import Base Unicode Split SpecSplit Ansi SpecAnsi AnsiProofs.
Open Scope Z_scope.

Section Sgr.
Variable u : unicode.
(** a sequence of Select Graphic Rendition (ECMA-48, 8.3.117) *)
Definition sgr (ps : list (list rune)) : list rune := ESC :: 91 :: joinWith 59 ps ++ [109].
Definition short (p : list rune) : bool := (length p <=? 2)%nat.
Definition zeros (p : list rune) : bool := forallb (Z.eqb 48) p.
(** what StripToken returns for it: start sequence, text, stop sequence of each part *)
Definition sgrParts (ps : list (list rune)) (parts : list (list rune * list rune * list rune)) : Prop :=
  if forallb short ps
  then parts = if zeros (hd [] ps) then [([], [], sgr ps)] else [(sgr ps, [], [])]
  else Forall (fun p => fst (fst p) = [] /\ snd p = []) parts /\ concat (map (fun p => snd (fst p)) parts) = sgr ps.
Lemma short_params ps : ps <> [] -> Forall (Forall (digit u)) ps -> forallb short ps = true -> params u (joinWith 59 ps) (hd [] ps) false.
Proof.
  induction ps as [|p ps IH]; intros Hn Hd Hs; [congruence|]. inversion Hd as [|? ? Hp Hps]; subst. cbn [forallb] in Hs. apply andb_prop in Hs as [Hs1 Hs2]. apply Nat.leb_le in Hs1.
  destruct ps as [|q ps]; [now apply params_one|]. cbn [joinWith hd]. apply (params_more u p 59 _ (hd [] (q :: ps)) false); [exact Hp|exact Hs1|now left|]. now apply IH.
Qed.
Lemma digits_split (p : list rune) : (2 < length p)%nat -> exists a b, p = a ++ b /\ length a = 3%nat.
Proof. intros H. exists (firstn 3 p), (skipn 3 p). rewrite firstn_skipn, firstn_length. split; [reflexivity|lia]. Qed.
Lemma long_params ps : Forall (Forall (digit u)) ps -> forallb short ps = false -> exists pre first post, joinWith 59 ps = pre ++ post /\ params u pre first true.
Proof.
  induction ps as [|p ps IH]; intros Hd Hs; [discriminate|]. inversion Hd as [|? ? Hp Hps]; subst. cbn [forallb] in Hs.
  destruct (short p) eqn:Ep; cbn [andb] in Hs.
  - destruct (IH Hps Hs) as (pre & first & post & E & Hpre). destruct ps as [|q ps]; [discriminate|]. cbn [joinWith] in *. rewrite E.
    exists (p ++ 59 :: pre), p, post. split; [now rewrite <- app_assoc|]. apply (params_more u p 59 pre first true); [exact Hp|now apply Nat.leb_le|now left|exact Hpre].
  - apply Nat.leb_gt in Ep. destruct (digits_split p Ep) as (a & b & -> & Ha). apply Forall_app in Hp as [Hpa Hpb].
    exists a, a. destruct ps as [|q ps]; cbn [joinWith]; [exists b|exists (b ++ 59 :: joinWith 59 (q :: ps)); rewrite <- app_assoc]; (split; [reflexivity|]); now apply params_full.
Qed.
Lemma text_lexed l : Forall (fun r => r <> ESC) l -> lexed u l (map (fun r => Chr [r]) l).
Proof. induction 1; [constructor|]. cbn [map]. now apply lx_chr. Qed.
Lemma join_noesc ps : Forall (Forall (digit u)) ps -> Forall (fun r => r <> ESC) (joinWith 59 ps).
Proof.
  assert (forall p, Forall (digit u) p -> Forall (fun r => r <> ESC) p) as K by (intros p; apply Forall_impl; intros r Hr ->; discriminate Hr).
  induction 1 as [|p ps Hp _ IH]; [constructor|]. destruct ps as [|q ps]; cbn [joinWith] in *; [now apply K|]. apply Forall_app. split; [now apply K|]. constructor; [discriminate|exact IH].
Qed.
Lemma zeros_spec p : zeros p = true <-> Forall (fun r => r = 48) p.
Proof. unfold zeros. rewrite forallb_forall, Forall_forall. split; intros H r Hr; specialize (H r Hr); [now apply Z.eqb_eq in H|now apply Z.eqb_eq]. Qed.
Lemma sgr_short ps : ps <> [] -> Forall (Forall (digit u)) ps -> forallb short ps = true -> lexed u (sgr ps) [Ctl (if zeros (hd [] ps) then Stop else Start) (sgr ps)].
Proof.
  intros Hn Hd Hs. rewrite <- (app_nil_r (sgr ps)) at 1. apply lx_csi; [|constructor]. unfold sgr. apply (csi_done u [] (joinWith 59 ps) (hd [] ps) 109); [now apply short_params|discriminate|intros [H|H]; discriminate H|].
  destruct (zeros (hd [] ps)) eqn:E; [apply fk_m0; now apply zeros_spec|]. apply fk_m1. intros H. apply zeros_spec in H. congruence.
Qed.
Lemma sgr_long ps : Forall (Forall (digit u)) ps -> forallb short ps = false -> exists items, lexed u (sgr ps) items /\ Forall isText items.
Proof.
  intros Hd Hs. destruct (long_params ps Hd Hs) as (pre & first & post & E & Hp). pose proof (join_noesc ps Hd) as Hne. rewrite E in Hne. apply Forall_app in Hne as [_ Hne].
  assert (exists x rest, post ++ [109] = x :: rest /\ Forall (fun r => r <> ESC) rest) as (x & rest & Ex & Hr).
  { destruct post as [|x post]; [exists 109, []; split; [reflexivity|constructor]|]. exists x, (post ++ [109]). split; [reflexivity|]. inversion Hne; subst. apply Forall_app. split; [assumption|]. constructor; [discriminate|constructor]. }
  exists (Ctl Other (ESC :: 91 :: pre ++ [x]) :: map (fun r => Chr [r]) rest). split.
  - unfold sgr. rewrite E, <- app_assoc, Ex. replace (ESC :: 91 :: pre ++ x :: rest) with ((ESC :: 91 :: pre ++ [x]) ++ rest) by (cbn [app]; now rewrite <- app_assoc).
    apply lx_csi; [now apply (csi_long u rest pre first x)|now apply text_lexed].
  - constructor; [exact I|]. apply Forall_map. apply Forall_forall. intros r _. exact I.
Qed.
Lemma text_groups items : Forall isText items -> forall ph cur, Forall isText cur -> Forall (Forall isText) (groupsFrom ph cur items).
Proof.
  induction 1 as [|i items Hi _ IH]; intros ph cur Hc; cbn [groupsFrom].
  - destruct ph; constructor; auto.
  - assert (Forall isText (cur ++ [i])) as Hci by (apply Forall_app; split; [exact Hc|]; constructor; [exact Hi|constructor]).
    assert (Forall isText [i]) as Hi1 by (constructor; [exact Hi|constructor]).
    destruct i as [l|[| |] l]; cbn [isText] in Hi; try contradiction; destruct ph; try (apply IH; auto; constructor); constructor; auto.
Qed.
Lemma text_part g : Forall isText g -> fst (fst (partOf g)) = [] /\ snd (partOf g) = [].
Proof.
  intros H. cbn [partOf fst snd]. split; induction H as [|i g Hi _ IH]; cbn [flat_map]; auto; rewrite IH; destruct i as [l|[| |] l]; cbn [isText] in Hi; try contradiction; reflexivity.
Qed.
Lemma parts_text parts : Forall (fun p : list rune * list rune * list rune => fst (fst p) = [] /\ snd p = []) parts ->
  concat (map (fun p => fst (fst p) ++ snd (fst p) ++ snd p) parts) = concat (map (fun p => snd (fst p)) parts).
Proof. induction 1 as [|[[a b] c] parts [Ha Hb] _ IH]; [reflexivity|]. cbn [map concat fst snd] in *. subst. rewrite IH. cbn [app]. now rewrite app_nil_r. Qed.
Theorem sgr_exact ps spare : ps <> [] -> Forall (Forall (digit u)) ps -> mcap (sgr ps ++ spare) ->
  exists parts, stripToken u (sgr ps ++ spare) (zlen (sgr ps)) = Ret (sgr ps ++ spare, parts) /\
    sgrParts ps (map (fun p => (contents (sgr ps ++ spare) (s_start p), contents (sgr ps ++ spare) (s_text p), contents (sgr ps ++ spare) (s_stop p))) parts).
Proof.
  intros Hn Hd Hm. unfold sgrParts. destruct (forallb short ps) eqn:Hs.
  - destruct (stripToken_exact u (sgr ps) spare _ Hm (sgr_short ps Hn Hd Hs)) as (parts & E & Hp). exists parts. split; [exact E|]. rewrite Hp.
    destruct (zeros (hd [] ps)); unfold groups, groupsFrom, partOf; cbn [app map flat_map]; rewrite ?app_nil_r; reflexivity.
  - destruct (sgr_long ps Hd Hs) as (items & Hl & Ht). destruct (stripToken_exact u (sgr ps) spare _ Hm Hl) as (parts & E & Hp). exists parts. split; [exact E|].
    assert (Forall (fun p : list rune * list rune * list rune => fst (fst p) = [] /\ snd p = []) (map partOf (groups items))) as K.
    { apply Forall_map. assert (Forall (Forall isText) (groups items)) as G by (unfold groups; destruct items; [repeat constructor|]; apply text_groups; [exact Ht|constructor]).
      revert G. apply Forall_impl. exact text_part. }
    rewrite <- Hp in K. split; [exact K|]. rewrite <- (parts_text _ K), map_map. cbn [fst snd].
    destruct (stripToken_lossless u (sgr ps) spare items Hm Hl) as (parts' & E' & Hj). rewrite E in E'. injection E' as <-. exact Hj.
Qed.
End Sgr.
