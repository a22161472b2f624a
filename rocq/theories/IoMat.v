(** aa_io_getvector, aa_io_fread_matrix_fix and aa_io_fread_matrix_heap. *)
From Coq Require Import ZArith Reals List Bool Arith Lia.
From Verif Require Import RegionModel RegionSpec RegionProofs IoModel IoSpec IoProofs IoNum IoLines IoVec.
Import ListNotations.
Open Scope nat_scope.

Definition last_line (ls : list (list Z)) : bool := match ls with [] => true | _ => false end.
(** the region is where it was, and only scratch space has changed *)
Definition back (s s' : rstate) : Prop := rhead s' = rhead s /\ rchunks s' = rchunks s /\ kept s s'.
Lemma back_refl s : back s s.
Proof. unfold back, kept. auto. Qed.
Lemma back_trans s1 s2 s3 : back s1 s2 -> back s2 s3 -> back s1 s3.
Proof.
  intros (H1 & C1 & K1) (H2 & C2 & K2). repeat split; try congruence.
  intros x c cs C Hx. rewrite (K2 x c cs) by congruence. now apply (K1 x c cs).
Qed.
Lemma back_free s s' z : back s s' -> free_at s z -> free_at s' z.
Proof.
  intros (H & C & _) (c & cs & C1 & G). exists c, cs. rewrite H, C. auto.
Qed.
Lemma kept_blocks s s' k : reach s k -> kept s s' -> forall b, In b k -> readable (rmem s) b -> readable (rmem s') b.
Proof.
  intros Hr Hk b Hb. apply readable_ext. intros x Hx.
  destruct (reach_good s k Hr) as (c & cs & (C1 & _) & _).
  apply (Hk x c cs C1). now destruct (block_place s k c cs b x Hr C1 Hb Hx).
Qed.
Lemma back_before s s' k : reach s k -> back s s' -> as_before s s' k.
Proof. intros Hr (H & C & K). repeat split; try assumption. now apply kept_blocks. Qed.

Section Mat.
  Variable strtod : list Z -> R * nat.

  (** aa_io_getvector is aa_io_parsevector on the next line *)
  Lemma getvector_read ms l ls s z n base incx X :
    free_at s z -> plain l -> (size l + 1 <= z)%Z ->
    exists s', getvector strtod ms (text_of (l :: ls)) s n base incx X =
      Got (fst (fst (parsevector strtod l n base incx X)), snd (parsevector strtod l n base incx X), text_of ls, last_line ls, s') /\
      back s s'.
  Proof.
    intros Hf Hp Hz. destruct (line_read ms l ls s z Hf Hp Hz) as (s1 & G & C & Hh & K & Str & Pop).
    unfold getvector. rewrite G. cbn [andthen]. rewrite Str.
    destruct (parsevector strtod l n base incx X) as [[i rest] X'].
    destruct (Pop (ms 0)) as (s2 & P & P1 & P2 & P3). rewrite P. cbn [region andthen fst snd].
    exists s2. split; [reflexivity|]. split; [exact P1|]. split; [exact P2|].
    intros x c cs Cx Hx. rewrite P3. now apply (K x c cs).
  Qed.

  (** ** Fixed size *)
  Lemma rows_app ms a : forall b i r s n lda A cnt,
    rows_from strtod ms (a + b) i r s n lda A cnt =
    andthen (rows_from strtod ms a i r s n lda A cnt) (fun v =>
    let '(cnt', A', r', s') := v in rows_from strtod ms b (i + a) r' s' n lda A' cnt').
  Proof.
    induction a as [|a IH]; intros b i r s n lda A cnt.
    - cbn. now rewrite Nat.add_0_r.
    - cbn [Nat.add rows_from]. destruct (getvector strtod (ms i) r s n i lda A) as [[[[[k A1] r1] e] s1]| | | | |]; try reflexivity.
      cbn [andthen]. rewrite IH. now replace (S i + a) with (i + S a) by lia.
  Qed.
  Lemma rows_read ms z n lda : 1 <= lda -> forall lines rows,
    Forall2 (fun l xs => plain l /\ (size l + 1 <= z)%Z /\ row strtod n l xs) lines rows ->
    forall i s A cnt extra, free_at s z -> i + length rows <= lda ->
    exists A' s', rows_from strtod ms (length rows) i (text_of (lines ++ extra)) s n lda A cnt =
        Got (cnt + length rows * n, A', text_of extra, s') /\ back s s' /\
      (forall r xs j x, nth_error rows r = Some xs -> nth_error xs j = Some x -> A' (i + r + j * lda) = x) /\
      (forall q, (forall r j, r < length rows -> j < n -> q <> i + r + j * lda) -> A' q = A q).
  Proof.
    intros Hlda. induction 1 as [|l xs lines rows (Hp & Hz & Hlen & more & tail & Hrow) HF IH]; intros i s A cnt extra Hf Hi.
    - exists A, s. cbn. rewrite Nat.add_0_r. repeat split.
      intros r xs j x E. destruct r; discriminate.
    - cbn [length app] in *. cbn [rows_from].
      destruct (getvector_read (ms i) l (lines ++ extra) s z n i lda A Hf Hp Hz) as (s1 & G & B).
      rewrite G. cbn [andthen].
      destruct (vector_ok strtod l (xs ++ more) tail n i lda A Hrow Hlda) as (rest & A1 & P & L & V & O).
      { left. rewrite app_length. lia. }
      rewrite app_length in P, O. rewrite Nat.min_l in P, O by lia. rewrite P. cbn [fst snd].
      assert (Fn : firstn n (xs ++ more) = xs). { rewrite <- Hlen, firstn_app, Nat.sub_diag, firstn_all. cbn. apply app_nil_r. }
      rewrite Fn in V.
      destruct (IH (S i) s1 A1 (cnt + n) extra (back_free _ _ _ B Hf)) as (A2 & s2 & E & B2 & V2 & O2); [lia|].
      rewrite E. exists A2, s2. split; [f_equal; f_equal; f_equal; f_equal; lia|]. split; [now apply (back_trans s s1)|].
      split.
      + intros [|r] ys j x Er Ej.
        * cbn in Er. injection Er as <-. rewrite Nat.add_0_r. rewrite O2; [now apply V|].
          intros r' j' Hr' Hj' Eq.
          assert (j = j') by nia. nia.
        * cbn in Er. replace (i + S r) with (S i + r) by lia. exact (V2 r ys j x Er Ej).
      + intros q Hq. rewrite O2.
        * apply O. intros j Hj. rewrite <- (Nat.add_0_r i). apply Hq; lia.
        * intros r j Hr Hj. replace (S i + r) with (i + S r) by lia. apply Hq; lia.
  Qed.
  (** at the end of the file *)
  Lemma rows_eof ms z n lda : strtod [] = (0%R, 0) -> 1 <= lda -> 1 <= n -> (1 <= z)%Z ->
    forall m i s A cnt, free_at s z ->
    exists A' s', rows_from strtod ms m i [] s n lda A cnt = Got (cnt, A', [], s') /\ back s s' /\
      (forall r, r < m -> A' (i + r) = 0%R) /\ (forall q, (forall r, r < m -> q <> i + r) -> A' q = A q).
  Proof.
    intros H0 Hlda Hn Hz. induction m as [|m IH]; intros i s A cnt Hf.
    - exists A, s. cbn. repeat split. intros r Hr. lia.
    - cbn [rows_from]. 
      destruct (getvector_read (ms i) [] [] s z n i lda A Hf) as (s1 & G & B); [split; intros []|unfold size; cbn; lia|].
      cbn [text_of] in G. rewrite G. cbn [andthen last_line].
      assert (P : parsevector strtod [] n i lda A = (0, [], upd A i 0%R)).
      { unfold parsevector. destruct n as [|n]; [lia|]. cbn [parse_from iscomment]. rewrite H0. cbn. now rewrite Nat.add_0_r. }
      rewrite P. cbn [fst snd]. rewrite Nat.add_0_r.
      destruct (IH (S i) s1 (upd A i 0%R) cnt (back_free _ _ _ B Hf)) as (A2 & s2 & E & B2 & V2 & O2).
      rewrite E. exists A2, s2. split; [reflexivity|]. split; [now apply (back_trans s s1)|]. split.
      + intros [|r] Hr.
        * rewrite Nat.add_0_r. rewrite O2; [apply upd_same|]. intros r' _ Eq. lia.
        * replace (i + S r) with (S i + r) by lia. apply V2. lia.
      + intros q Hq. rewrite O2.
        * apply upd_other. rewrite <- (Nat.add_0_r i). apply Hq. lia.
        * intros r Hr. replace (S i + r) with (i + S r) by lia. apply Hq. lia.
  Qed.

  Lemma fix_wrap ms m0 m1 r s m n lda A z v s' cnt A' :
    free_at s z -> (1 <= z)%Z ->
    rows_from strtod ms m 0 r s n lda A 0 = Got (cnt, A', v, s') -> back s s' ->
    exists s2, fread_matrix_fix strtod ms m0 m1 r s m n lda A = Got (cnt, A', v, s2) /\ back s s2.
  Proof.
    intros (c & cs & C1 & G1 & Hb & Hmod & Hz) Hz1 E B. unfold fread_matrix_fix.
    unfold region_tmpalloc. rewrite C1. assert (W : W64 = (2 ^ 64)%Z) by reflexivity.
    destruct (Z.leb_spec W64 (rhead s + 1)); [lia|]. destruct (Z.ltb_spec (cend c) (rhead s + 1)); [lia|].
    cbn [region andthen fst snd]. rewrite E. cbn [andthen].
    pose proof B as (B1 & B2 & B3). unfold region_pop. rewrite B2, C1.
    assert (P : pop_in_node (rhead s) c = true) by (apply in_node_iff; lia). rewrite P. cbn [region andthen].
    eexists. split; [reflexivity|]. split; [cbn; now apply alignptr_id|]. split; [cbn; congruence|].
    intros x c' cs' C' Hx. cbn [rmem]. now apply (B3 x c' cs').
  Qed.
End Mat.
