(** Vectors and matrices read from lines. *)
From Coq Require Import ZArith Reals List Bool Arith Lia.
From Verif Require Import RegionModel RegionSpec RegionProofs IoModel IoSpec IoProofs IoNum IoLines.
Import ListNotations.
Open Scope nat_scope.

Lemma upd_same X i x : upd X i x i = x.
Proof. unfold upd. now rewrite Nat.eqb_refl. Qed.
Lemma upd_other X i x j : j <> i -> upd X i x j = X j.
Proof. intros H. unfold upd. now destruct (Nat.eqb_spec j i). Qed.

Section Vec.
  Variable strtod : list Z -> R * nat.

  Lemma parse_steps tail str xs : numbers strtod tail str xs ->
    forall n i b base incx X, blanks b -> b = [] \/ xs <> [] -> 1 <= incx ->
    exists rest X', parse_from strtod n i (b ++ str) base incx X = (i + min n (length xs), rest, X') /\
      number_line strtod rest (skipn n xs) tail /\
      (forall j x, nth_error (firstn n xs) j = Some x -> X' (base + (i + j) * incx) = x) /\
      (forall j, (forall q, q < min n (length xs) -> j <> base + (i + q) * incx) ->
                 (length xs < n -> ~ comment tail -> j <> base + (i + length xs) * incx) -> X' j = X j) /\
      (length xs < n -> ~ comment tail -> X' (base + (i + length xs) * incx) = 0%R).
  Proof.
    induction 1 as [Hs|t x g r xs Ht Hg He Hn IH]; intros n i b base incx X Hb Hx Hinc.
    - destruct Hx as [->|Hx]; [|now destruct Hx]. cbn [app length]. rewrite Nat.min_0_r, !Nat.add_0_r.
      assert (NL : number_line strtod tail [] tail).
      { exists [], tail. repeat split; [constructor|now constructor|now left]. }
      destruct n as [|n]; cbn [parse_from].
      + eexists _, _. split; [reflexivity|]. split; [exact NL|]. split; [|split].
        * intros [|j] y E; discriminate.
        * reflexivity.
        * intros K; lia.
      + destruct (stop_step strtod tail Hs) as [C|[C E]]; rewrite C.
        * eexists _, _. split; [reflexivity|]. split; [exact NL|]. split; [|split].
          -- intros [|j] y K; discriminate.
          -- reflexivity.
          -- intros _ K. apply comment_iff in C. contradiction.
        * rewrite E. cbn [Nat.eqb]. eexists _, _. split; [reflexivity|]. split; [exact NL|]. split; [|split].
          -- intros [|j] y K; discriminate.
          -- intros j _ K. apply upd_other. apply K; [lia|]. intros C'. apply comment_iff in C'. congruence.
          -- intros _ _. apply upd_same.
    - destruct n as [|n]; cbn [parse_from].
      + cbn [Nat.min]. rewrite Nat.add_0_r. eexists _, _. split; [reflexivity|]. split; [|split; [|split]].
        * exists b, (t ++ g ++ r). repeat split; [exact Hb|now constructor|exact Hx].
        * intros [|j] y E; discriminate.
        * reflexivity.
        * intros K; lia.
      + destruct (word_step strtod b t x g r tail xs Hb Ht Hg He Hn) as (C & k & E & K & Sk).
        rewrite C, E. destruct (Nat.eqb_spec k 0); [contradiction|]. rewrite Sk.
        destruct (IH n (S i) [] base incx (upd X (base + i * incx) x)) as (rest & X' & P & L & V & O & Z0);
          [constructor|now left|exact Hinc|].
        cbn [app] in P. rewrite P. exists rest, X'. cbn [length skipn firstn Nat.min].
        split; [f_equal; f_equal; lia|]. split; [exact L|].
        assert (Inj : forall p q, base + p * incx = base + q * incx -> p = q) by (intros; nia).
        split; [|split].
        * intros [|j] y Ey.
          -- cbn in Ey. injection Ey as <-. rewrite Nat.add_0_r. rewrite O.
             ++ apply upd_same.
             ++ intros q _ Eq. apply Inj in Eq. lia.
             ++ intros _ _ Eq. apply Inj in Eq. lia.
          -- cbn [nth_error] in Ey. replace (i + S j) with (S i + j) by lia. now apply V.
        * intros j J1 J2. rewrite O.
          -- apply upd_other. rewrite <- (Nat.add_0_r i). apply J1. lia.
          -- intros q Hq. replace (S i + q) with (i + S q) by lia. apply J1. lia.
          -- intros L1 L2. replace (S i + length xs) with (i + S (length xs)) by lia. apply J2; [lia|exact L2].
        * intros L1 L2. replace (i + S (length xs)) with (S i + length xs) by lia. apply Z0; [lia|exact L2].
  Qed.

  (** ** aa_io_parsevector *)
  Lemma vector_steps l xs tail n base incx X :
    number_line strtod l xs tail -> 1 <= incx ->
    exists rest X', parsevector strtod l n base incx X = (min n (length xs), rest, X') /\
      number_line strtod rest (skipn n xs) tail /\
      at_index X' base incx (firstn n xs) /\
      (forall j, (forall q, q < min n (length xs) -> j <> base + q * incx) ->
                 (length xs < n -> ~ comment tail -> j <> base + length xs * incx) -> X' j = X j) /\
      (length xs < n -> ~ comment tail -> X' (base + length xs * incx) = 0%R).
  Proof.
    intros (b & str & -> & Hb & Hn & Hx) Hinc.
    destruct (parse_steps tail str xs Hn n 0 b base incx X Hb Hx Hinc) as (rest & X' & P & L & V & O & Z0).
    exists rest, X'. cbn [Nat.add] in *. auto.
  Qed.
  Lemma vector_ok l xs tail n base incx X :
    number_line strtod l xs tail -> 1 <= incx -> n <= length xs \/ comment tail ->
    exists rest X', parsevector strtod l n base incx X = (min n (length xs), rest, X') /\
      number_line strtod rest (skipn n xs) tail /\ at_index X' base incx (firstn n xs) /\
      elsewhere X X' base incx (min n (length xs)).
  Proof.
    intros Hl Hi Hc. destruct (vector_steps l xs tail n base incx X Hl Hi) as (rest & X' & P & L & V & O & _).
    exists rest, X'. split; [exact P|]. split; [exact L|]. split; [exact V|].
    intros j Hj. apply O; [exact Hj|]. intros K1 K2. destruct Hc; [lia|contradiction].
  Qed.
  Lemma vector_short l xs tail n base incx X :
    number_line strtod l xs tail -> 1 <= incx -> length xs < n -> ~ comment tail ->
    exists rest X', parsevector strtod l n base incx X = (length xs, rest, X') /\
      at_index X' base incx (xs ++ [0%R]) /\ elsewhere X X' base incx (S (length xs)).
  Proof.
    intros Hl Hi Hc Ht. destruct (vector_steps l xs tail n base incx X Hl Hi) as (rest & X' & P & L & V & O & Z0).
    rewrite Nat.min_r in P by lia. exists rest, X'. split; [exact P|]. rewrite firstn_all2 in V by lia. split.
    - intros i x E. destruct (lt_dec i (length xs)) as [Li|Li].
      + rewrite nth_error_app1 in E by exact Li. now apply V.
      + assert (i < length (xs ++ [0%R])) by (apply nth_error_Some; congruence). rewrite app_length in H. cbn [length] in H.
        assert (i = length xs) by lia. subst i. rewrite nth_error_app2, Nat.sub_diag in E by lia. cbn in E. injection E as <-.
        now apply Z0.
    - intros j Hj. apply O.
      + intros q Hq. apply Hj. lia.
      + intros _ _. apply Hj. lia.
  Qed.

End Vec.

(** ** Strings in the region *)
Section Strings.
  Lemma cstring_ok mem l : forall p k, ~ In 0%Z l -> length l < k \/ (length l = k) ->
    (forall i v, nth_error (l ++ [0%Z]) i = Some v -> mem (p + Z.of_nat i)%Z = v) -> cstring mem p k = l.
  Proof.
    induction l as [|c r IH]; intros p k H0 Hk Hm.
    - destruct k as [|k]; [reflexivity|]. cbn [cstring].
      assert (E : mem p = 0%Z) by (rewrite <- (Z.add_0_r p); exact (Hm 0 0%Z eq_refl)). now rewrite E.
    - destruct k as [|k]; [cbn in Hk; lia|]. cbn [cstring].
      assert (E : mem p = c). { rewrite <- (Z.add_0_r p). exact (Hm 0 c eq_refl). }
      rewrite E. destruct (Z.eqb_spec c 0) as [->|_]; [exfalso; apply H0; now left|].
      f_equal. apply IH.
      + intros K; apply H0; now right.
      + cbn in Hk. lia.
      + intros i v Hi. replace (p + 1 + Z.of_nat i)%Z with (p + Z.of_nat (S i))%Z by lia. apply Hm. exact Hi.
  Qed.

  (** reading a line that fits, parsing it, and giving it back *)
  Lemma text_cons l ls : text_of (l :: ls) = l ++ tail_of (match ls with [] => true | _ => false end) (text_of ls).
  Proof. destruct ls; cbn; [now rewrite app_nil_r|reflexivity]. Qed.
  (** what is known about a region that has [z] free bytes *)
  Definition free_at (s : rstate) (z : Z) : Prop :=
    exists c cs, rchunks s = c :: cs /\ (cend c <= 2 ^ 63)%Z /\ (cbase c <= rhead s)%Z /\ (rhead s mod 16 = 0)%Z /\
                 (rhead s + z <= cend c)%Z.
  Lemma reach_free s k z : reach s k -> (0 < z)%Z -> (z <= region_freesize s)%Z -> free_at s z.
  Proof.
    intros Hr Hz Hf. destruct (reach_good s k Hr) as (c & cs & (C1 & G1 & G2 & G3 & G4) & Hap & Hh & Hmod & Ht & Hfr & _).
    exists c, cs. rewrite Hfr in Hf by lia. repeat split; try assumption; lia.
  Qed.
  (** memory that a client may hold blocks in is not changed *)
  Definition kept (s s' : rstate) : Prop :=
    forall x c cs, rchunks s = c :: cs -> (x < rhead s \/ cend c <= x)%Z -> rmem s' x = rmem s x.
  Lemma line_read ms l ls s z :
    free_at s z -> plain l -> (size l + 1 <= z)%Z ->
    exists s1, getline ms (text_of (l :: ls)) s = Got (rhead s, text_of ls, match ls with [] => true | _ => false end, s1) /\
      rchunks s1 = rchunks s /\ rhead s1 = (rhead s + rounded (size l + 1))%Z /\ kept s s1 /\
      cstring (rmem s1) (rhead s) (length (text_of (l :: ls))) = l /\
      forall m, exists s2, region_pop m s1 (rhead s) = Ok s2 /\ rhead s2 = rhead s /\ rchunks s2 = rchunks s /\ rmem s2 = rmem s1.
  Proof.
    intros (c & cs & C1 & G1 & Hb & Hmod & Hz) [Hnl H0] Hsz. rewrite text_cons.
    rewrite (getline_fits ms l _ (text_of ls) s c cs C1 G1 Hnl); [|destruct ls; [reflexivity|discriminate]|lia].
    eexists. split; [reflexivity|]. cbn [rchunks rhead rmem].
    assert (0 <= size l)%Z by (unfold size; lia).
    split; [reflexivity|]. split; [|split; [|split]].
    - rewrite alignptr_eq. unfold rounded.
      assert (E : rhead s = (16 * (rhead s / 16))%Z) by (pose proof (Z.div_mod (rhead s) 16); lia).
      rewrite E at 1. replace (16 * (rhead s / 16) + size l + 1 + 15)%Z with ((size l + 1 + 15) + (rhead s / 16) * 16)%Z by lia.
      rewrite Z.div_add by lia. lia.
    - intros x c' cs' C' Hx. rewrite C1 in C'. injection C' as <- <-. cbn [rmem].
      apply write_bytes_out. rewrite app_length. cbn [length]. unfold size in *. lia.
    - apply cstring_ok; [exact H0| |].
      + rewrite app_length. lia.
      + intros i v Hi. now apply write_nth.
    - intros m. unfold region_pop. cbn [rchunks rhead rmem]. rewrite C1.
      assert (P : pop_in_node (rhead s) c = true) by (apply in_node_iff; lia). rewrite P.
      eexists. split; [reflexivity|]. cbn [rhead rchunks rmem]. rewrite alignptr_id by exact Hmod. auto.
  Qed.
End Strings.
