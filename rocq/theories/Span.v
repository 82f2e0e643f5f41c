(** Lines displayed alone. *)
From Verif Require Import Base Arith Unicode SpecAnsi AnsiProofs SpecAttr KP Nodes Render SpecKP SpecFormat Format SpecLines FormatLines SpecScreen Screen FormatCall.

Lemma lines_alone A L u o m punct parts lb ts ps spare maxWidth W ord :
  formattedCall A L u o m punct parts lb ts ps spare maxWidth W ord ->
  exists res lb', leftAlignUniform A u ord spare lb (map tokenRunes ts) maxWidth = Ret (res, lb') /\
  match res with None => True | Some ls => Forall (standsAlone u) ls end.
Proof.
  intros C. destruct (formatted_screen A L u o m punct parts lb ts ps spare maxWidth W ord C) as (res & lb' & E & H). exists res, lb'. split; [exact E|].
  destruct res as [ls|]; [|exact I]. destruct H as (lines & _ & _ & H). clear E. induction H as [|l pieces ls lines (items & cells & H1 & H2 & _) _ IH]; constructor; [|exact IH].
  exists items, cells. now split.
Qed.
Lemma shows_displays u act l cells : shows u [] l cells act -> displays u l cells.
Proof. intros (items & H1 & H2). exists (items ++ []), act. split; [|now rewrite app_nil_r]. rewrite <- (app_nil_r l). apply H1. constructor. Qed.
Lemma not_alone u l cells act : shows u [] l cells act -> act <> [] -> ~ standsAlone u l.
Proof.
  intros (items & H1 & H2) Ha (items' & cells' & H3 & H4). specialize (H1 [] [] (lx_nil u)). rewrite !app_nil_r in H1.
  rewrite (lexed_fun u _ _ H1 _ H3) in H2. rewrite H2 in H4. now injection H4.
Qed.
