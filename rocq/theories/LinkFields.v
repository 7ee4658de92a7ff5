(** What the relocated fields of a section contain when they do not overlap (C41). *)
From Verif Require Import Base BaseLemmas LexModel LexSpec LexProof LinkModel LinkSpec IdentProof LinkReloc.
From Coq Require Import Sorted.

Lemma patch_get w base r v i : inside w r -> 0 <= i -> (i < r_offset r \/ r_offset r + width r <= i) -> zget (patch w base r v) i = zget w i.
Proof.
  intros I0 I D. destruct (field_split w r I0) as (a & x & c & -> & E & L). rewrite (patch_mid a x c base r v E L).
  set (y := digits _ _). assert (LY : zlen y = width r) by (unfold y, zlen; rewrite digits_len; destruct (width_cases r) as [-> | ->]; reflexivity).
  assert (W0 : 0 <= width r) by (destruct (width_cases r) as [-> | ->]; lia). destruct D as [D|D]; [rewrite !zget_app_l by lia; reflexivity|]. rewrite !(zget_app_r a) by lia. rewrite !zget_app_r by lia. rewrite LY, L. reflexivity.
Qed.
Lemma patch_size w base r v : inside w r -> zlen (patch w base r v) = zlen w.
Proof.
  intros I0. destruct (field_split w r I0) as (a & x & c & -> & E & L). rewrite (patch_mid a x c base r v E L), !zlen_app. unfold zlen at 2. rewrite digits_len.
  destruct (width_cases r) as [W|W]; rewrite W in *; change (Z.of_nat (Z.to_nat 4)) with 4 in *; change (Z.of_nat (Z.to_nat 2)) with 2 in *; lia.
Qed.
Lemma field_ext w w' r : 0 <= r_offset r -> (forall i, r_offset r <= i < r_offset r + width r -> zget w i = zget w' i) -> field w r = field w' r.
Proof.
  intros O H. unfold field. f_equal. apply zget_ext. intros i. assert (W : 0 <= width r) by (destruct (width_cases r) as [-> | ->]; lia).
  destruct (Z.ltb_spec i 0); [unfold zget; replace (i <? 0) with true by lia; reflexivity|].
  destruct (Z.ltb_spec i (width r)); [rewrite !zget_firstn, !zget_skipn by lia; apply H; lia|].
  unfold zget. replace (i <? 0) with false by lia. rewrite !(proj2 (nth_error_None _ _)); auto; rewrite firstn_length; lia.
Qed.
Lemma patch_field w base r v : inside w r -> field (patch w base r v) r = relocated w base r v.
Proof.
  intros I0. destruct (field_split w r I0) as (a & x & c & E & EA & EX). unfold patch. rewrite field_mid.
  - rewrite number_digits. assert (W : 8 * Z.of_nat (Z.to_nat (width r)) = 8 * width r) by (destruct (width_cases r) as [-> | ->]; reflexivity). rewrite W.
    unfold relocated. apply Z.mod_mod. destruct (width_cases r) as [-> | ->]; lia.
  - destruct I0. unfold zlen in *. rewrite firstn_length. destruct (width_cases r) as [W|W]; rewrite W in *; lia.
  - unfold zlen. rewrite digits_len. destruct (width_cases r) as [-> | ->]; reflexivity.
Qed.

Lemma fields_ok base v rels : forall w, Forall (inside w) rels ->
  zlen (patchAll w base v rels) = zlen w /\
  (forall i, 0 <= i -> (forall r, In r rels -> i < r_offset r \/ r_offset r + width r <= i) -> zget (patchAll w base v rels) i = zget w i) /\
  (ForallOrdPairs apart rels -> forall r, In r rels -> field (patchAll w base v rels) r = relocated w base r (v r)).
Proof.
  induction rels as [|r rels IH]; intros w F; [split; [|split]; auto; intros _ ? []|].
  cbn [patchAll]. inversion_clear F as [|? ? F1 F2]. assert (F3 : Forall (inside (patch w base r (v r))) rels).
  { eapply Forall_impl; [|exact F2]. intros r' [A B]. split; [auto|]. rewrite patch_size; auto. }
  destruct (IH _ F3) as (H1 & H2 & H3). split; [rewrite H1; apply patch_size; auto|]. split.
  - intros i I D. rewrite H2; [apply patch_get; auto; apply D; left; auto|auto|intros; apply D; right; auto].
  - intros P r' R. inversion_clear P as [|? ? P1 P2]. rewrite Forall_forall in P1, F2. destruct R as [<- |R].
    + rewrite <- (patch_field w base r (v r) F1). apply field_ext; [apply F1|]. intros i I. apply H2; [destruct F1; lia|].
      intros r' R'. specialize (P1 r' R'). unfold apart in P1. lia.
    + rewrite (H3 P2 r' R). unfold relocated. rewrite (field_ext (patch w base r (v r)) w r'); [reflexivity|apply (F2 r' R)|].
      intros i I. apply patch_get; [auto|destruct (F2 r' R); lia|]. specialize (P1 r' R). unfold apart in P1. lia.
Qed.
