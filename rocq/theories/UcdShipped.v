(** The shipped tables file and the tool. *)
From Verif Require Import Base Unicode Utf8 SpecUtf8 Text Tables Width SpecWidth WidthProofs Dict FileProofs BuildTables SpecTables BuildProofs Ucd SpecUcd UcdProofs TablesGo.

Lemma shipped_file : exists a b, sourceOf (mkTables combining doublewidth ambiguous narrow neutral) emoji = a ++ [10] ++ b /\ tables_go = a ++ b.
Proof. exists (firstn 66 tables_go), (skipn 66 tables_go). split; [vm_compute; reflexivity|]. symmetry. apply firstn_skipn. Qed.

Theorem regenerated wlines wes wbs elines ees ebs :
  Forall lineOk wlines -> utf8s (flat_map (fun l => l ++ [10]) wlines) wbs -> Forall2 widthLine wlines wes -> sorted (map fst (given wes)) ->
  Forall lineOk elines -> utf8s (flat_map (fun l => l ++ [10]) elines) ebs -> Forall2 emojiText elines ees -> sorted (given ees) ->
  (forall r, (member r combining <-> listedAs wlines r (fun line _ => mentions line "COMBINING")) /\
    (member r doublewidth <-> listedAs wlines r (fun _ class => class = ascii "W" \/ class = ascii "F")) /\
    (member r ambiguous <-> listedAs wlines r (fun _ class => class = ascii "A")) /\
    (member r narrow <-> listedAs wlines r (fun _ class => class = ascii "Na")) /\
    (member r neutral <-> listedAs wlines r (fun _ class => class = ascii "N")) /\
    (member r emoji <-> listedEmoji elines r)) ->
  exists a b, buildTables wbs ebs = a ++ [10] ++ b /\ tables_go = a ++ b.
Proof.
  intros H1 H2 H3 H4 H5 H6 H7 H8 HM.
  rewrite (tables_determined _ _ _ _ _ _ (mkTables combining doublewidth ambiguous narrow neutral) emoji H1 H2 H3 H4 H5 H6 H7 H8); [exact shipped_file| |exact HM].
  exact tables_gapped.
Qed.
