(** Forward kinematics. *)
From Coq Require Import ZArith String List Bool Reals Lia Lra.
From Verif Require Import TfModel TfSpec TfProofs TfRotmatProofs TfRepProofs TfCalcProofs TfConvProofs TfFrameProofs
  SgModel SgSpec SgMapProofs SgIndexProofs SgNumberProofs SgInvProofs SgQueryProofs SgClaims1.
Import ListNotations.
Open Scope Z_scope.

(** ** Poses along the path *)
Inductive pose {A} (mul : A -> A -> A) (m : smap frame) (relv : frame -> A) : string -> A -> Prop :=
| pose_top n f : mfind n m = Some f -> f_parent f = ""%string -> pose mul m relv n (relv f)
| pose_child n f Ep : mfind n m = Some f -> f_parent f <> ""%string ->
    pose mul m relv (f_parent f) Ep -> pose mul m relv n (mul Ep (relv f)).
Lemma pose_fun {A} mul m (relv : frame -> A) n a b : pose mul m relv n a -> pose mul m relv n b -> a = b.
Proof.
  intros H. revert b. induction H as [n f F P|n f Ep F P H IH]; intros b Hb;
    inversion Hb as [n0 f0 F0 P0 E1 E2|n0 f0 Ep0 F0 P0 H0 E1 E2]; assert (f0 = f) by congruence; subst f0;
    try congruence. f_equal. apply IH. exact H0.
Qed.

Lemma nth_error_ext {A} (a b : list A) : (forall j, nth_error a j = nth_error b j) -> a = b.
Proof.
  revert b. induction a as [|x r IH]; intros [|y t] H; auto; try (specialize (H O); discriminate).
  f_equal; [specialize (H O); cbn in H; congruence|]. apply IH. intros j. exact (H (S j)).
Qed.

Section Fk.
  Variables (g : graph) (lim : lkind -> string -> option (R * R)) (s : sg) (l : list string).
  Hypothesis I : inv g lim s.
  Hypothesis X : indexed s l.
  Hypothesis D : s_dirty s = false.
  Hypothesis Fo : forest g.

  Lemma frames_len : length (s_frames s) = length l.
  Proof. rewrite (frames_l _ _ _ I _ X (proj1 Fo)). apply map_length. Qed.
  Lemma nth_f j : (j < length l)%nat -> exists n f, nth_error l j = Some n /\ mfind n (s_map s) = Some f /\
    frame_at s (Z.of_nat j) = Ok f /\ f_name f = n.
  Proof.
    intros H. destruct (nth_error l j) as [n|] eqn:J; [|apply nth_error_None in J; lia].
    destruct (frame_at_ok _ _ _ I _ X _ _ J) as (f & F & A & N). exists n, f. auto.
  Qed.

  Section Gen.
    Context {A : Type} (mul : A -> A -> A) (rel : nat -> frame -> res A) (relv : frame -> A).

    Definition good (r a : list A) : Prop :=
      length r = length a /\ (length a <= length l)%nat /\
      forall j n f, (j < length a)%nat -> nth_error l j = Some n -> mfind n (s_map s) = Some f ->
        nth_error r j = Some (relv f) /\ exists E, nth_error a j = Some E /\ pose mul (s_map s) relv n E.

    Hypothesis Hrel : forall j n f, nth_error l j = Some n -> mfind n (s_map s) = Some f -> rel j f = Ok (relv f).

    Lemma good_snoc r a i n f Ea : length a = i -> good r a -> nth_error l i = Some n ->
      mfind n (s_map s) = Some f -> pose mul (s_map s) relv n Ea -> good (r ++ [relv f]) (a ++ [Ea]).
    Proof.
      intros Li (Lr & Ll & G) J F P. assert (i < length l)%nat by (apply nth_error_Some; congruence).
      unfold good. rewrite !app_length. cbn [length]. split; [lia|]. split; [lia|].
      intros j m f' Hj Jm F'. destruct (Nat.eq_dec j i) as [->|Ne].
      - assert (m = n) by congruence. subst m. assert (f' = f) by congruence. subst f'.
        rewrite !nth_error_app2 by lia. replace (i - length r)%nat with O by lia. replace (i - length a)%nat with O by lia.
        cbn. eauto.
      - rewrite !nth_error_app1 by lia. apply (G j m f'); auto. lia.
    Qed.
    Lemma fk_loop_good k : forall i r a, length a = i -> (i + k <= length l)%nat -> good r a ->
      exists r' a', fk_loop mul rel s (seq i k) r a = Ok (r', a') /\ length a' = (i + k)%nat /\ good r' a'.
    Proof.
      induction k as [|k IH]; intros i r a La Le G.
      - exists r, a. cbn. split; [reflexivity|]. split; [lia|exact G].
      - cbn [seq fk_loop].
        destruct (nth_f i) as (n & f & J & F & At & Nm); [lia|]. rewrite At. cbn [bind].
        rewrite (Hrel _ _ _ J F). cbn [bind].
        destruct (id_done _ _ X _ _ _ J F) as (_ & Pid & _).
        unfold in_global. destruct (String.eqb_spec (f_parent f) "") as [P|P].
        + cbn [bind]. destruct (IH (S i) (r ++ [relv f]) (a ++ [relv f])) as (r' & a' & E & L' & G').
          * rewrite app_length. cbn. lia.
          * lia.
          * eapply good_snoc; eauto. now apply pose_top.
          * exists r', a'. split; auto. split; auto. lia.
        + destruct (parent_first _ _ _ I _ X Fo _ _ _ J F P) as (p & Jp & Lt & Ep).
          rewrite Pid, Ep. cbn [from bind].
          destruct (Z.ltb_spec (Z.of_nat p) (Z.of_nat i)); [|lia]. cbn [negb].
          destruct (Z.ltb_spec (Z.of_nat p) 0); [lia|]. rewrite Nat2Z.id.
          destruct (nth_f p) as (n' & fp & J' & Fp & _); [lia|]. assert (n' = f_parent f) by congruence. subst n'.
          destruct (proj2 (proj2 G) p (f_parent f) fp) as (_ & Ea & Na & Pa); auto; [lia|].
          rewrite Na. cbn [from bind].
          destruct (IH (S i) (r ++ [relv f]) (a ++ [mul Ea (relv f)])) as (r' & a' & E & L' & G').
          * rewrite app_length. cbn. lia.
          * lia.
          * eapply good_snoc; eauto. now apply pose_child.
          * exists r', a'. split; auto. split; auto. lia.
    Qed.
    Lemma good_nil : good [] [].
    Proof. unfold good. cbn. split; [auto|]. split; [lia|]. intros; lia. Qed.
    Lemma fk_run_good q n_tf : s_csize s = Some (length q) ->
      exists r a, fk_run mul rel s q n_tf = Ok (r, a) /\ length a = Nat.min n_tf (length l) /\ good r a.
    Proof.
      intros C. unfold fk_run, clean. rewrite D, C. cbn [from bind]. rewrite Nat.eqb_refl. cbn [negb].
      rewrite frames_len. destruct (fk_loop_good (Nat.min n_tf (length l)) 0 [] []) as (r & a & E & La & G); auto.
      - lia.
      - apply good_nil.
      - exists r, a. auto.
    Qed.
    Lemma good_ext r1 a1 r2 a2 : good r1 a1 -> good r2 a2 -> length a1 = length a2 -> r1 = r2 /\ a1 = a2.
    Proof.
      intros (L1 & B1 & G1) (L2 & B2 & G2) E.
      assert (H : forall j, nth_error r1 j = nth_error r2 j /\ nth_error a1 j = nth_error a2 j).
      { intros j. destruct (lt_dec j (length a1)) as [Lt|Ge].
        - destruct (nth_f j) as (n & f & J & F & _); [lia|].
          destruct (G1 j n f) as (R1 & E1 & A1 & P1); auto. destruct (G2 j n f) as (R2 & E2 & A2 & P2); auto; [lia|].
          rewrite R1, R2, A1, A2. split; auto. f_equal. eapply pose_fun; eauto.
        - split; [rewrite (proj2 (nth_error_None r1 j)), (proj2 (nth_error_None r2 j)) by lia|
                  rewrite (proj2 (nth_error_None a1 j)), (proj2 (nth_error_None a2 j)) by lia]; auto. }
      split; apply nth_error_ext; intros j; apply H.
    Qed.
  End Gen.
End Fk.
