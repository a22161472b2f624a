(** Proofs about pseudoinverses by singular value decomposition, transposes, interpolation, statistics and geometry. *)
From Coq Require Import Reals Arith List Bool Lra Lia.
From Verif Require Import MatModel MatSpec MatProofs LaModel LaSpec LaAlg LaProofs AtanModel AtanProofs.
Open Scope R_scope.

(** ** Singular value decomposition *)
Lemma put_svd_ok m n r U Sg Vt M : clear_of U (m * m) Sg (Nat.min m n) -> clear_of U (m * m) Vt (n * n) -> clear_of Sg (Nat.min m n) Vt (n * n) ->
  let M' := put_svd m n r U Sg Vt M in
  (forall i j, (i < m)%nat -> (j < m)%nat -> M' (mad U m i j) = sU r i j) /\
  (forall i, (i < Nat.min m n)%nat -> M' (Sg + i)%nat = sS r i) /\
  (forall i j, (i < n)%nat -> (j < n)%nat -> M' (mad Vt n i j) = sVt r i j) /\
  (forall a, outside U (m * m) a -> outside Sg (Nat.min m n) a -> outside Vt (n * n) a -> M' a = M a).
Proof.
  intros C1 C2 C3 M'. unfold M', put_svd. clear M'.
  destruct (mad_loop U m m m (fun i j _ => sU r i j) M (le_n _)) as [U1 U2]; [reflexivity|]. set (M1 := loop m _ M) in *.
  destruct (loop_map (Nat.min m n) (fun i => Sg + i)%nat (fun i _ => sS r i) M1) with (k := Nat.min m n) as [S1 S2]; [intros; lia|reflexivity|lia|].
  set (M2 := loop (Nat.min m n) _ M1) in *.
  destruct (mad_loop Vt n n n (fun i j _ => sVt r i j) M2 (le_n _)) as [V1 V2]; [reflexivity|].
  split; [|split; [|split]].
  - intros i j Hi Hj. pose proof (mad_in U m i j m Hi Hj). rewrite V2, S2, U1; auto.
    + intros. unfold clear_of in *. lia.
    + intros i' j' Hi' Hj' E. pose proof (mad_in Vt n i' j' n Hi' Hj'). unfold clear_of in *. lia.
  - intros i Hi. rewrite V2, S1; auto. intros i' j' Hi' Hj' E. pose proof (mad_in Vt n i' j' n Hi' Hj'). unfold clear_of in *. lia.
  - exact V1.
  - intros a H1 H2 H3. unfold outside in *. rewrite V2, S2, U2; auto.
    + intros i' j' Hi' Hj' E. pose proof (mad_in U m i' j' m Hi' Hj'). lia.
    + intros. lia.
    + intros i' j' Hi' Hj' E. pose proof (mad_in Vt n i' j' n Hi' Hj'). lia.
Qed.

Section Outer.
  Context (m n U Sg Vt As : nat) (r : svdres).
  (** the decomposition is stored, apart from the result *)
  Definition holds_svd (M : mem) : Prop :=
    (forall i j, (i < m)%nat -> (j < m)%nat -> M (mad U m i j) = sU r i j) /\
    (forall i, (i < Nat.min m n)%nat -> M (Sg + i)%nat = sS r i) /\
    (forall i j, (i < n)%nat -> (j < n)%nat -> M (mad Vt n i j) = sVt r i j).
  Definition off_svd : Prop := clear_of U (m * m) As (m * n) /\ clear_of Sg (Nat.min m n) As (m * n) /\ clear_of Vt (n * n) As (m * n).
  Hypothesis HO : off_svd.
  Lemma off_keep M M' : holds_svd M -> (forall a, outside As (m * n) a -> M' a = M a) -> holds_svd M'.
  Proof.
    destruct HO as (O1 & O2 & O3). intros (H1 & H2 & H3) E. split; [|split].
    - intros i j Hi Hj. rewrite E; auto. pose proof (mad_in U m i j m Hi Hj). unfold clear_of, outside in *. lia.
    - intros i Hi. rewrite E; auto. unfold clear_of, outside in *. lia.
    - intros i j Hi Hj. rewrite E; auto. pose proof (mad_in Vt n i j n Hi Hj). unfold clear_of, outside in *. lia.
  Qed.
  Lemma add_outer_ok c l M : holds_svd M -> (l < Nat.min m n)%nat ->
    let M' := add_outer m n c l U Vt As M in
    (forall i j, (i < n)%nat -> (j < m)%nat -> amat As n M' i j = amat As n M i j + sVt r l i * c * sU r j l) /\
    (forall a, outside As (m * n) a -> M' a = M a).
  Proof.
    intros (H1 & H2 & H3) Hl. unfold add_outer, b_ger.
    destruct (mad_loop As n n m (fun i j M' => M' (mad As n i j) + c * M (Vt + l + i * n)%nat * M (U + m * l + j * 1)%nat) M (le_n _)) as [L1 L2].
    { intros i j M' _ _ E _. now rewrite E. }
    split.
    - intros i j Hi Hj. etransitivity; [apply (L1 i j Hi Hj)|]. change (M (mad As n i j)) with (amat As n M i j).
      replace (Vt + l + i * n)%nat with (mad Vt n l i) by (unfold mad; lia). replace (U + m * l + j * 1)%nat with (mad U m j l) by (unfold mad; lia).
      rewrite H1, H3 by lia. lra.
    - intros a Ha. apply L2. intros i j Hi Hj E. pose proof (mad_in As n i j m Hi Hj). unfold outside in Ha. lia.
  Qed.
  (** a run of updates *)
  Lemma outer_loop c k0 M : holds_svd M ->
    forall k, (k0 + k <= Nat.min m n)%nat ->
    (forall l M M', (l < Nat.min m n)%nat -> holds_svd M -> holds_svd M' -> c l M = c l M') ->
    let M' := loop k (fun i M => add_outer m n (c (k0 + i)%nat M) (k0 + i) U Vt As M) M in
    (forall i j, (i < n)%nat -> (j < m)%nat -> amat As n M' i j = amat As n M i j + bsum k (fun i0 => sVt r (k0 + i0) i * c (k0 + i0)%nat M * sU r j (k0 + i0))) /\
    (forall a, outside As (m * n) a -> M' a = M a).
  Proof.
    intros HM k. induction k as [|k IH]; intros Hk Hc; cbn [loop bsum]; [split; [intros; lra|auto]|].
    destruct (IH ltac:(lia) Hc) as [I1 I2]. set (M1 := loop k _ M) in *.
    assert (HM1 : holds_svd M1) by (apply (off_keep M); auto).
    destruct (add_outer_ok (c (k0 + k)%nat M1) (k0 + k) M1 HM1 ltac:(lia)) as [A1 A2]. split.
    - intros i j Hi Hj. rewrite A1, I1 by auto. rewrite (Hc (k0 + k)%nat M1 M) by (auto; lia). lra.
    - intros a Ha. rewrite A2 by exact Ha. apply I2. exact Ha.
  Qed.
End Outer.
Lemma bsum_split n k f : bsum (n + k) f = bsum n f + bsum k (fun i => f (n + i)%nat).
Proof. induction k as [|k IH]; [rewrite Nat.add_0_r; cbn; lra|]. rewrite Nat.add_succ_r. cbn [bsum]. rewrite IH. lra. Qed.

Section Loops.
  Context (m n U Sg Vt As : nat) (r : svdres).
  Let K := Nat.min m n.
  Hypothesis HO : off_svd m n U Sg Vt As.
  Hypothesis DEC : forall k l, (k <= l)%nat -> (l < K)%nat -> sS r l <= sS r k.
  Lemma pinv_loop_ok tol : forall fuel i M, holds_svd m n U Sg Vt r M -> (i <= K)%nat -> (K - i <= fuel)%nat ->
    let M' := pinv_loop fuel i K m n tol U Sg Vt As M in
    (forall p q, (p < n)%nat -> (q < m)%nat -> amat As n M' p q = amat As n M p q +
       bsum (K - i) (fun l => sVt r (i + l) p * (if Rlt_dec tol (sS r (i + l)) then 1 / sS r (i + l) else 0) * sU r q (i + l))) /\
    (forall a, outside As (m * n) a -> M' a = M a).
  Proof.
    induction fuel as [|fuel IH]; intros i M HM Hi Hf.
    - assert (i = K) as -> by lia. rewrite Nat.sub_diag. cbn [bsum pinv_loop dzd_loop]. split; [intros; lra|auto].
    - cbn [pinv_loop]. destruct (Nat.ltb_spec i K) as [H|H].
      2:{ replace (K - i)%nat with 0%nat by lia. cbn [bsum]. split; [intros; lra|auto]. }
      pose proof HM as (_ & H2 & _). rewrite (H2 i H). destruct (Rlt_dec tol (sS r i)) as [T|T].
      + destruct (add_outer_ok m n U Sg Vt As r (1 / sS r i) i M HM H) as [A1 A2]. set (M1 := add_outer _ _ _ _ _ _ _ M) in *.
        assert (HM1 : holds_svd m n U Sg Vt r M1) by (apply (off_keep m n U Sg Vt As r HO M); auto).
        destruct (IH (i + 1)%nat M1 HM1 ltac:(lia) ltac:(lia)) as [I1 I2]. split.
        * intros p q Hp Hq. rewrite I1, A1 by auto. replace (K - i)%nat with (1 + (K - (i + 1)))%nat by lia. rewrite bsum_split. cbn [bsum].
          rewrite Nat.add_0_r. destruct (Rlt_dec tol (sS r i)); [|contradiction].
          rewrite (bsum_ext (K - (i + 1)) (fun l => sVt r (i + 1 + l) p * _ * _) (fun i0 => sVt r (i + (1 + i0)) p * (if Rlt_dec tol (sS r (i + (1 + i0))) then 1 / sS r (i + (1 + i0)) else 0) * sU r q (i + (1 + i0)))).
          -- lra.
          -- intros l Hl. replace (i + 1 + l)%nat with (i + (1 + l))%nat by lia. reflexivity.
        * intros a Ha. rewrite I2 by exact Ha. apply A2. exact Ha.
      + split; [|auto]. intros p q Hp Hq. rewrite (bsum_zero (K - i)); [lra|]. intros l Hl.
        specialize (DEC i (i + l)%nat ltac:(lia) ltac:(lia)). destruct (Rlt_dec tol (sS r (i + l))); lra.
  Qed.
  Lemma dzd_loop_ok s_min : forall fuel i M, holds_svd m n U Sg Vt r M -> (i <= K)%nat -> (K - i <= fuel)%nat ->
    let M' := dzd_loop fuel i K m n s_min U Sg Vt As M in
    (forall p q, (p < n)%nat -> (q < m)%nat -> amat As n M' p q = amat As n M p q +
       bsum (K - i) (fun l => sVt r (i + l) p * (if Rle_dec s_min (sS r (i + l)) then 1 / sS r (i + l) else sS r (i + l) / (s_min * s_min)) * sU r q (i + l))) /\
    (forall a, outside As (m * n) a -> M' a = M a).
  Proof.
    induction fuel as [|fuel IH]; intros i M HM Hi Hf.
    - assert (i = K) as -> by lia. rewrite Nat.sub_diag. cbn [bsum pinv_loop dzd_loop]. split; [intros; lra|auto].
    - cbn [dzd_loop]. destruct (Nat.ltb_spec i K) as [H|H].
      2:{ replace (K - i)%nat with 0%nat by lia. cbn [bsum]. split; [intros; lra|auto]. }
      pose proof HM as (_ & H2 & _). rewrite (H2 i H). destruct (Rle_dec s_min (sS r i)) as [T|T].
      + destruct (add_outer_ok m n U Sg Vt As r (1 / sS r i) i M HM H) as [A1 A2]. set (M1 := add_outer _ _ _ _ _ _ _ M) in *.
        assert (HM1 : holds_svd m n U Sg Vt r M1) by (apply (off_keep m n U Sg Vt As r HO M); auto).
        destruct (IH (i + 1)%nat M1 HM1 ltac:(lia) ltac:(lia)) as [I1 I2]. split.
        * intros p q Hp Hq. rewrite I1, A1 by auto. replace (K - i)%nat with (1 + (K - (i + 1)))%nat by lia. rewrite bsum_split. cbn [bsum].
          rewrite Nat.add_0_r. destruct (Rle_dec s_min (sS r i)); [|contradiction].
          rewrite (bsum_ext (K - (i + 1)) (fun l => sVt r (i + 1 + l) p * _ * _) (fun i0 => sVt r (i + (1 + i0)) p * (if Rle_dec s_min (sS r (i + (1 + i0))) then 1 / sS r (i + (1 + i0)) else sS r (i + (1 + i0)) / (s_min * s_min)) * sU r q (i + (1 + i0)))).
          -- lra.
          -- intros l Hl. replace (i + 1 + l)%nat with (i + (1 + l))%nat by lia. reflexivity.
        * intros a Ha. rewrite I2 by exact Ha. apply A2. exact Ha.
      + destruct (outer_loop m n U Sg Vt As r HO (fun l M => M (Sg + l)%nat / (s_min * s_min)) i M HM (K - i)%nat) as [O1 O2].
        { unfold K in *. lia. }
        { intros l Ma Mb Hl Ha Hb. destruct Ha as (_ & Ha & _), Hb as (_ & Hb & _). rewrite Ha, Hb by exact Hl. reflexivity. }
        split; [|exact O2]. intros p q Hp Hq. rewrite O1 by auto. f_equal. apply bsum_ext. intros l Hl.
        rewrite (H2 (i + l)%nat) by (unfold K in *; lia). specialize (DEC i (i + l)%nat ltac:(lia) ltac:(lia)).
        destruct (Rle_dec s_min (sS r (i + l))); [lra|reflexivity].
  Qed.
End Loops.

Definition pinv_value (tol : R) (s : R) : R := if Rlt_dec tol s then 1 / s else 0.
Definition dzd_value (s_min : R) (s : R) : R := if Rle_dec s_min s then 1 / s else s / (s_min * s_min).
Definition dz_value (s2 : R) (s : R) : R := s / Rmax (s * s) s2.
Lemma min_if m n : (if Nat.ltb m n then m else n) = Nat.min m n.
Proof. destruct (Nat.ltb_spec m n); lia. Qed.

Section Calls.
  Context (gesdd : nat -> nat -> (nat -> nat -> R) -> svdres) (A As : dmat) (w : nat) (M : mem).
  Let m := m_rows A.
  Let n := m_cols A.
  Let r := gesdd m n (mget A M).
  Hypothesis GA : m_ld A = m.
  Hypothesis GS : m_ld As = n.
  Hypothesis E1 : m_rows A = m_cols As.
  Hypothesis E2 : m_cols A = m_rows As.
  Hypothesis SV : is_svd m n (mget A M) r.
  Hypothesis CW : clear_of (m_data As) (m * n) w (svd_work m n).
  Lemma svd_prefix : exists M2, d_svd gesdd m n (m_data A) (m_ld A) w (w + m * m + n * n) (w + m * m) M = Done M2 /\
    let M3 := dmat_zero As M2 in
    holds_svd m n w (w + m * m + n * n) (w + m * m) r M2 /\
    holds_svd m n w (w + m * m + n * n) (w + m * m) r M3 /\ off_svd m n w (w + m * m + n * n) (w + m * m) (m_data As) /\
    (forall p q, (p < n)%nat -> (q < m)%nat -> amat (m_data As) n M3 p q = 0) /\
    (forall a, outside (m_data As) (m * n) a -> outside w (svd_work m n) a -> M3 a = M a).
  Proof.
    unfold d_svd. rewrite GA, Nat.ltb_irrefl. cbn [andb]. eexists. split; [reflexivity|].
    change (gesdd m n (fun i j => M (mad (m_data A) m i j))) with (gesdd m n (fun i j => M (m_data A + m * j + i)%nat)).
    assert (RR : gesdd m n (fun i j => M (m_data A + m * j + i)%nat) = r).
    { unfold r, mget. f_equal. unfold melem. rewrite GA. reflexivity. }
    rewrite RR. unfold svd_work in *.
    destruct (put_svd_ok m n r w (w + m * m + n * n) (w + m * m) M) as (P1 & P2 & P3 & P4); [unfold clear_of; lia..|].
    set (M2 := put_svd m n r _ _ _ M) in *. cbv zeta.
    assert (HH : holds_svd m n w (w + m * m + n * n) (w + m * m) r M2) by (split; [|split]; assumption).
    assert (OO : off_svd m n w (w + m * m + n * n) (w + m * m) (m_data As)) by (unfold off_svd, clear_of in *; lia).
    destruct (mad_loop (m_data As) n n m (fun i j _ => if Nat.eqb i j then 0 else 0) M2 (le_n _)) as [Z1 Z2]; [reflexivity|].
    assert (ZE : dmat_zero As M2 = loop m (fun j => loop n (fun i m0 => upd m0 (mad (m_data As) n i j) (if Nat.eqb i j then 0 else 0))) M2).
    { unfold dmat_zero, dmat_set, b_laset. rewrite GS, <- E1, <- E2. reflexivity. }
    rewrite <- ZE in Z1, Z2.
    assert (Fr : forall a, outside (m_data As) (m * n) a -> dmat_zero As M2 a = M2 a).
    { intros a Ha. apply Z2. intros i j Hi Hj E. pose proof (mad_in (m_data As) n i j m Hi Hj). unfold outside in Ha. lia. }
    split; [exact HH|]. split; [exact (off_keep m n _ _ _ _ r OO M2 _ HH Fr)|]. split; [exact OO|]. split.
    - intros p q Hp Hq. etransitivity; [apply (Z1 p q Hp Hq)|]. now destruct (Nat.eqb p q).
    - intros a H1 H2. rewrite Fr by exact H1. apply P4; unfold outside in *; lia.
  Qed.
  Lemma dmat_pinv_ok tol : exists M', dmat_pinv gesdd A tol As w M = Done M' /\
    (forall p q, (p < n)%nat -> (q < m)%nat ->
       mget As M' p q = regularised m n r (pinv_value (if Rlt_dec tol 0 then INR (Nat.max m n) * sS r 0%nat * / 2 ^ 52 else tol)) p q) /\
    (forall a, outside (m_data As) (m * n) a -> outside w (svd_work m n) a -> M' a = M a).
  Proof.
    unfold dmat_pinv, check. rewrite E1, E2, !Nat.eqb_refl. rewrite <- E1, <- E2. fold m n.
    destruct svd_prefix as (M2 & D & H2 & H3 & OO & Z & F). rewrite D. cbn [obind]. eexists. split; [reflexivity|].
    rewrite min_if. replace (if Nat.ltb m n then n else m) with (Nat.max m n) by (destruct (Nat.ltb_spec m n); lia).
    set (t := if Rlt_dec tol 0 then INR (Nat.max m n) * M2 (w + m * m + n * n)%nat * / 2 ^ 52 else tol).
    destruct (pinv_loop_ok m n _ _ _ _ r OO (proj2 (proj2 (proj2 (proj2 SV)))) t (Nat.min m n) 0 _ H3) as [L1 L2]; [lia|lia|].
    split.
    - intros p q Hp Hq. unfold mget, melem. rewrite GS. etransitivity; [apply (L1 p q Hp Hq)|]. rewrite Z by auto. rewrite Nat.sub_0_r.
      unfold regularised, pinv_value. rewrite Rplus_0_l. apply bsum_ext. intros l Hl.
      assert (T : t = if Rlt_dec tol 0 then INR (Nat.max m n) * sS r 0%nat * / 2 ^ 52 else tol).
      { unfold t. destruct H2 as (_ & H2 & _). rewrite <- (H2 0%nat) by lia. rewrite Nat.add_0_r. reflexivity. }
      rewrite <- T. reflexivity.
    - intros a H1 H4. rewrite L2 by exact H1. apply F; auto.
  Qed.
  Lemma dmat_dzdpinv_ok s_min : exists M', dmat_dzdpinv gesdd A s_min As w M = Done M' /\
    (forall p q, (p < n)%nat -> (q < m)%nat -> mget As M' p q = regularised m n r (dzd_value s_min) p q) /\
    (forall a, outside (m_data As) (m * n) a -> outside w (svd_work m n) a -> M' a = M a).
  Proof.
    unfold dmat_dzdpinv, check. rewrite E1, E2, !Nat.eqb_refl. rewrite <- E1, <- E2. fold m n.
    destruct svd_prefix as (M2 & D & H2 & H3 & OO & Z & F). rewrite D. cbn [obind]. eexists. split; [reflexivity|].
    rewrite min_if.
    destruct (dzd_loop_ok m n _ _ _ _ r OO (proj2 (proj2 (proj2 (proj2 SV)))) s_min (Nat.min m n) 0 _ H3) as [L1 L2]; [lia|lia|].
    split.
    - intros p q Hp Hq. unfold mget, melem. rewrite GS. etransitivity; [apply (L1 p q Hp Hq)|]. rewrite Z by auto. rewrite Nat.sub_0_r.
      unfold regularised, dzd_value. rewrite Rplus_0_l. apply bsum_ext. reflexivity.
    - intros a H1 H4. rewrite L2 by exact H1. apply F; auto.
  Qed.
End Calls.
Lemma la_dzdpinv_ok gesdd m n s2 A As w M : let r := gesdd m n (amat A m M) in
  clear_of As (m * n) w (svd_work m n) ->
  exists M', la_dzdpinv gesdd m n s2 A As w M = Done M' /\
    (forall p q, (p < n)%nat -> (q < m)%nat -> amat As n M' p q = regularised m n r (dz_value s2) p q) /\
    (forall a, outside As (m * n) a -> outside w (svd_work m n) a -> M' a = M a).
Proof.
  intros r CW. unfold la_dzdpinv, d_svd. rewrite Nat.ltb_irrefl. cbn [andb obind].
  change (gesdd m n (fun i j => M (mad A m i j))) with r. unfold svd_work in *.
  destruct (put_svd_ok m n r w (w + m * m + n * n) (w + m * m) M) as (P1 & P2 & P3 & P4); [unfold clear_of; lia..|].
  set (M2 := put_svd m n r _ _ _ M) in *.
  destruct (loop_map (m * n) (fun i => As + i)%nat (fun _ _ => 0) M2) with (k := (m * n)%nat) as [Z1 Z2]; [intros; lia|reflexivity|lia|].
  change (loop (m * n) (fun i m0 => upd m0 (As + i) 0) M2) with (zero (m * n) As M2) in *.
  assert (OO : off_svd m n w (w + m * m + n * n) (w + m * m) As) by (unfold off_svd, clear_of in *; lia).
  assert (HH : holds_svd m n w (w + m * m + n * n) (w + m * m) r M2) by (split; [|split]; assumption).
  assert (Fr : forall a, outside As (m * n) a -> zero (m * n) As M2 a = M2 a).
  { intros a Ha. apply Z2. intros i Hi. unfold outside in Ha. lia. }
  pose proof (off_keep m n _ _ _ _ r OO M2 _ HH Fr) as H3.
  destruct (outer_loop m n _ _ _ _ r OO (fun l M => let s := M (w + m * m + n * n + l)%nat in s / Rmax (s * s) s2) 0 _ H3 (Nat.min m n)) as [O1 O2]; [lia| |].
  { intros l Ma Mb Hl Ha Hb. destruct Ha as (_ & Ha & _), Hb as (_ & Hb & _). cbv zeta. rewrite Ha, Hb by exact Hl. reflexivity. }
  eexists. split; [reflexivity|]. cbn [Nat.add] in O1, O2. split.
  - intros p q Hp Hq. etransitivity; [apply (O1 p q Hp Hq)|].
    assert (Z : amat As n (zero (m * n) As M2) p q = 0).
    { unfold amat. specialize (Z1 (n * q + p)%nat ltac:(nia)). cbv beta in Z1. rewrite Nat.add_assoc in Z1. exact Z1. }
    rewrite Z, Rplus_0_l. unfold regularised, dz_value. apply bsum_ext. intros l Hl. cbv zeta.
    destruct H3 as (_ & H3 & _). rewrite (H3 l Hl). reflexivity.
  - intros a H1 H2. rewrite O2 by exact H1. rewrite Fr by exact H1. apply P4; unfold outside in *; lia.
Qed.

(** ** Transposes *)
Lemma transpose2_ok m n A At M : clear_of A (m * n) At (m * n) ->
  let M' := la_transpose2 m n A At M in
  (forall i j, (i < n)%nat -> (j < m)%nat -> amat At n M' i j = amat A m M j i) /\ (forall a, outside At (m * n) a -> M' a = M a).
Proof.
  intros C. unfold la_transpose2.
  destruct (mad_loop At n n m (fun j i M' => M' (mad A m i j)) M (le_n _)) as [L1 L2].
  - intros i j M' Hi Hj _ E. apply E. intros i' j' Hi' Hj'. pose proof (mad_in A m j i n Hj Hi). pose proof (mad_in At n i' j' m Hi' Hj'). unfold clear_of in C. lia.
  - split; [intros i j Hi Hj; exact (L1 i j Hi Hj)|]. intros a Ha. apply L2. intros i j Hi Hj E. pose proof (mad_in At n i j m Hi Hj). unfold outside in Ha. lia.
Qed.
Definition swapped (i k p q : nat) : bool := (Nat.eqb p i && Nat.ltb i q && Nat.leb q (i + k)) || (Nat.eqb q i && Nat.ltb i p && Nat.leb p (i + k)).
Lemma transpose_row n A i M : (i < n)%nat -> forall k, (k <= n - (i + 1))%nat ->
  let M' := loop k (fun k M => let j := (i + 1 + k)%nat in let t := M (mad A n i j) in upd (upd M (mad A n i j) (M (mad A n j i))) (mad A n j i) t) M in
  (forall p q, (p < n)%nat -> (q < n)%nat -> M' (mad A n p q) = if swapped i k p q then M (mad A n q p) else M (mad A n p q)) /\
  (forall a, outside A (n * n) a -> M' a = M a).
Proof.
  intros Hi k. induction k as [|k IH]; intros Hk.
  - cbn [loop]. split; [|auto]. intros p q Hp Hq. unfold swapped. rewrite Nat.add_0_r.
    destruct (Nat.eqb_spec p i), (Nat.ltb_spec i q), (Nat.leb_spec q i), (Nat.eqb_spec q i), (Nat.ltb_spec i p), (Nat.leb_spec p i); cbn; try reflexivity; lia.
  - destruct (IH ltac:(lia)) as [I1 I2]. cbn [loop]. set (M1 := loop k _ M) in *. cbv zeta. set (j := (i + 1 + k)%nat). split.
    + intros p q Hp Hq. unfold upd at 1. destruct (Nat.eqb_spec (mad A n p q) (mad A n j i)) as [E|E].
      * apply mad_inj in E; [|lia|unfold j; lia]. destruct E as [-> ->]. rewrite I1 by lia.
        assert (S1 : swapped i k i j = false). { unfold swapped, j. destruct (Nat.eqb_spec i i), (Nat.leb_spec (i + 1 + k) (i + k)), (Nat.eqb_spec (i + 1 + k) i), (Nat.ltb_spec i (i + 1 + k)), (Nat.ltb_spec i i); cbn; try reflexivity; lia. }
        assert (S2 : swapped i (S k) j i = true). { unfold swapped, j. rewrite Nat.eqb_refl. rewrite (proj2 (Nat.ltb_lt i (i + 1 + k))) by lia. rewrite (proj2 (Nat.leb_le (i + 1 + k) (i + S k))) by lia. cbn. apply orb_true_r. }
        rewrite S1, S2. reflexivity.
      * unfold upd. destruct (Nat.eqb_spec (mad A n p q) (mad A n i j)) as [E2|E2].
        -- apply mad_inj in E2; [|lia|lia]. destruct E2 as [-> ->]. rewrite I1 by (unfold j in *; lia).
           assert (S1 : swapped i k j i = false). { unfold swapped, j. destruct (Nat.eqb_spec i i), (Nat.leb_spec (i + 1 + k) (i + k)), (Nat.eqb_spec (i + 1 + k) i), (Nat.ltb_spec i (i + 1 + k)), (Nat.ltb_spec i i); cbn; try reflexivity; lia. }
           assert (S2 : swapped i (S k) i j = true). { unfold swapped, j. rewrite Nat.eqb_refl. rewrite (proj2 (Nat.ltb_lt i (i + 1 + k))) by lia. rewrite (proj2 (Nat.leb_le (i + 1 + k) (i + S k))) by lia. reflexivity. }
           rewrite S1, S2. reflexivity.
        -- rewrite I1 by auto.
           assert (SS : swapped i (S k) p q = swapped i k p q).
           { unfold swapped.
             assert (N1 : ~ (p = j /\ q = i)) by (intros [-> ->]; auto). assert (N2 : ~ (p = i /\ q = j)) by (intros [-> ->]; auto). unfold j in *.
             destruct (Nat.eqb_spec p i), (Nat.ltb_spec i q), (Nat.leb_spec q (i + k)), (Nat.leb_spec q (i + S k)), (Nat.eqb_spec q i), (Nat.ltb_spec i p), (Nat.leb_spec p (i + k)), (Nat.leb_spec p (i + S k)); cbn; try reflexivity; lia. }
           now rewrite SS.
    + intros a Ha. pose proof (mad_in A n i j n ltac:(lia) ltac:(unfold j; lia)). pose proof (mad_in A n j i n ltac:(unfold j; lia) ltac:(lia)).
      unfold upd. unfold outside in Ha. destruct (Nat.eqb_spec a (mad A n j i)); [lia|]. destruct (Nat.eqb_spec a (mad A n i j)); [lia|]. apply I2. exact Ha.
Qed.
Lemma transpose_inplace n A M : let M' := la_transpose n A M in
  (forall i j, (i < n)%nat -> (j < n)%nat -> amat A n M' i j = amat A n M j i) /\ (forall a, outside A (n * n) a -> M' a = M a).
Proof.
  unfold la_transpose.
  assert (L : forall k, (k <= n)%nat -> let M' := loop k (fun i => loop (n - (i + 1)) (fun k M => let j := (i + 1 + k)%nat in
      let t := M (mad A n i j) in upd (upd M (mad A n i j) (M (mad A n j i))) (mad A n j i) t)) M in
    (forall p q, (p < n)%nat -> (q < n)%nat -> M' (mad A n p q) = if Nat.ltb (Nat.min p q) k then M (mad A n q p) else M (mad A n p q)) /\
    (forall a, outside A (n * n) a -> M' a = M a)).
  { induction k as [|k IH]; intros Hk; [split; auto|]. destruct (IH ltac:(lia)) as [I1 I2]. cbn [loop]. set (M1 := loop k _ M) in *.
    destruct (transpose_row n A k M1 ltac:(lia) (n - (k + 1)) (le_n _)) as [R1 R2]. split.
    - intros p q Hp Hq. rewrite R1, !I1 by auto. rewrite (Nat.min_comm q p). unfold swapped.
      destruct (Nat.eqb_spec p k), (Nat.ltb_spec k q), (Nat.leb_spec q (k + (n - (k + 1)))), (Nat.eqb_spec q k), (Nat.ltb_spec k p), (Nat.leb_spec p (k + (n - (k + 1)))),
        (Nat.ltb_spec (Nat.min p q) k), (Nat.ltb_spec (Nat.min p q) (S k)); cbn; try reflexivity; try lia; replace q with p by lia; reflexivity.
    - intros a Ha. rewrite R2 by exact Ha. apply I2. exact Ha. }
  destruct (L n (le_n _)) as [L1 L2]. split; [|exact L2]. intros i j Hi Hj. etransitivity; [apply (L1 i j Hi Hj)|].
  rewrite (proj2 (Nat.ltb_lt _ _)) by lia. reflexivity.
Qed.

(** ** Trace, products, determinant *)
Lemma trace_abs n A M : la_trace n A M = bsum n (fun i => Rabs (amat A n M i i)).
Proof. unfold la_trace, b_asum. apply bsum_ext. intros i Hi. unfold amat. do 2 f_equal. lia. Qed.
Lemma trace_ok n A M : (forall i, (i < n)%nat -> 0 <= amat A n M i i) -> la_trace n A M = bsum n (fun i => amat A n M i i).
Proof. intros H. rewrite trace_abs. apply bsum_ext. intros i Hi. apply Rabs_right. specialize (H i Hi). lra. Qed.
Lemma trace_wrong n A M : (exists i, (i < n)%nat /\ amat A n M i i < 0) -> bsum n (fun i => amat A n M i i) < la_trace n A M.
Proof.
  intros (i & Hi & Hneg). rewrite trace_abs. apply Rminus_gt_0_lt. rewrite <- bsum_minus. apply bsum_pos.
  - intros j Hj. pose proof (Rle_abs (amat A n M j j)). lra.
  - exists i. split; [exact Hi|]. rewrite Rabs_left by exact Hneg. lra.
Qed.
Lemma wdot_ok n x A y M : la_wdot n x A y M = dotp n (arr x M) (mulv n (amat A n M) (arr y M)).
Proof.
  unfold la_wdot, b_dot, dotp, mulv.
  rewrite (bsum_ext n _ (fun i => bsum n (fun k => arr x M k * (amat A n M k i * arr y M i)))).
  - rewrite bsum_swap. apply bsum_ext. intros k Hk. now rewrite bsum_scal.
  - intros i Hi. rewrite <- bsum_scal. apply bsum_ext. intros k Hk. unfold arr, amat. rewrite !Nat.mul_1_r.
    replace (A + i * n + k)%nat with (A + n * i + k)%nat by lia. ring.
Qed.

(** ** Interpolation *)
Lemma lerp_ok n u v1 inc1 v2 inc2 vu incu M : (0 < incu)%nat ->
  (forall i j, (i < n)%nat -> (j < n)%nat -> vu + i * incu <> v1 + j * inc1 /\ vu + i * incu <> v2 + j * inc2)%nat ->
  let M' := d_lerp n u v1 inc1 v2 inc2 vu incu M in
  (forall i, (i < n)%nat -> M' (vu + i * incu)%nat = (1 - u) * M (v1 + i * inc1)%nat + u * M (v2 + i * inc2)%nat) /\
  (forall a, (forall i, (i < n)%nat -> a <> vu + i * incu)%nat -> M' a = M a).
Proof.
  intros Hi HC. unfold d_lerp.
  destruct (vec_mem n vu incu (fun i m => m (v1 + i * inc1)%nat + u * (m (v2 + i * inc2)%nat - m (v1 + i * inc1)%nat)) M Hi) as [L1 L2].
  - intros i m Hi' _ E. rewrite !E; [reflexivity| |]; intros k Hk; destruct (HC k i Hk Hi'); auto.
  - split; [|exact L2]. intros i Hi'. rewrite L1 by exact Hi'. ring.
Qed.
Lemma linterp_ok n t0 X0 t1 X1 ti Xi M : t0 <> t1 -> clear_of Xi n X0 n -> clear_of Xi n X1 n ->
  let M' := la_linterp n t0 X0 t1 X1 ti Xi M in
  (forall i, (i < n)%nat -> arr Xi M' i = arr X0 M i + (arr X1 M i - arr X0 M i) / (t1 - t0) * (ti - t0)) /\ (forall a, outside Xi n a -> M' a = M a).
Proof.
  intros Ht C1 C2. unfold la_linterp. destruct (lerp_ok n ((ti - t0) / (t1 - t0)) X0 1 X1 1 Xi 1 M) as [L1 L2]; [lia|intros; unfold clear_of in *; lia|].
  split.
  - intros i Hi. specialize (L1 i Hi). rewrite !Nat.mul_1_r in L1. unfold arr. rewrite L1. field. lra.
  - intros a Ha. apply L2. intros. unfold outside in Ha. lia.
Qed.
Lemma quad_poly t0 x0 t1 x1 t2 x2 : t0 <> t1 -> t1 <> t2 -> t0 <> t2 ->
  parabola t0 x0 t1 x1 t2 x2 (fun t => quad_a t0 x0 t1 x1 t2 x2 + quad_b t0 x0 t1 x1 t2 x2 * t + quad_c t0 x0 t1 x1 t2 x2 * (t * t)).
Proof.
  intros H1 H2 H3. split; [|split; [|split]].
  - exists (quad_a t0 x0 t1 x1 t2 x2), (quad_b t0 x0 t1 x1 t2 x2), (quad_c t0 x0 t1 x1 t2 x2). intros. ring.
  - unfold quad_a, quad_b, quad_c. field. lra.
  - unfold quad_a, quad_b, quad_c. field. lra.
  - unfold quad_a, quad_b, quad_c. field. lra.
Qed.
(** the parabola is unique *)
Lemma parabola_unique t0 x0 t1 x1 t2 x2 p q : t0 <> t1 -> t1 <> t2 -> t0 <> t2 ->
  parabola t0 x0 t1 x1 t2 x2 p -> parabola t0 x0 t1 x1 t2 x2 q -> forall t, p t = q t.
Proof.
  intros H1 H2 H3 ((a & b & c & Hp) & P0 & P1 & P2) ((a' & b' & c' & Hq) & Q0 & Q1 & Q2) t.
  rewrite Hp in P0, P1, P2. rewrite Hq in Q0, Q1, Q2. rewrite Hp, Hq.
  set (A := a - a'). set (B := b - b'). set (C := c - c').
  assert (Z : forall s, A + B * s + C * s * s = (a + b * s + c * s * s) - (a' + b' * s + c' * s * s)) by (intros; unfold A, B, C; ring).
  assert (Z0 : A + B * t0 + C * t0 * t0 = 0) by (rewrite Z; lra).
  assert (Z1 : A + B * t1 + C * t1 * t1 = 0) by (rewrite Z; lra).
  assert (Z2 : A + B * t2 + C * t2 * t2 = 0) by (rewrite Z; lra).
  assert (D1 : B + C * (t0 + t1) = 0). { apply Rmult_eq_reg_l with (t1 - t0); [|lra]. rewrite Rmult_0_r. rewrite <- (Rminus_diag_eq _ _ (eq_trans Z1 (eq_sym Z0))). ring. }
  assert (D2 : B + C * (t1 + t2) = 0). { apply Rmult_eq_reg_l with (t2 - t1); [|lra]. rewrite Rmult_0_r. rewrite <- (Rminus_diag_eq _ _ (eq_trans Z2 (eq_sym Z1))). ring. }
  assert (HC : C = 0). { apply Rmult_eq_reg_l with (t2 - t0); [|lra]. rewrite Rmult_0_r. rewrite <- (Rminus_diag_eq _ _ (eq_trans D2 (eq_sym D1))). ring. }
  assert (HB : B = 0) by (rewrite HC in D1; lra). assert (HA : A = 0) by (rewrite HB, HC in Z0; lra).
  specialize (Z t). rewrite HA, HB, HC in Z. lra.
Qed.
Lemma quadterp_ok n t0 X0 t1 X1 t2 X2 ti Xi M : t0 <> t1 -> t1 <> t2 -> t0 <> t2 ->
  clear_of Xi n X0 n -> clear_of Xi n X1 n -> clear_of Xi n X2 n ->
  let M' := la_quadterp n t0 X0 t1 X1 t2 X2 ti Xi M in
  (forall i p, (i < n)%nat -> parabola t0 (arr X0 M i) t1 (arr X1 M i) t2 (arr X2 M i) p -> arr Xi M' i = p ti) /\ (forall a, outside Xi n a -> M' a = M a).
Proof.
  intros H1 H2 H3 C0 C1 C2. unfold la_quadterp. cbv zeta.
  destruct (loop_map n (fun i => Xi + i)%nat (fun i m => quad_a t0 (m (X0 + i)%nat) t1 (m (X1 + i)%nat) t2 (m (X2 + i)%nat) + quad_b t0 (m (X0 + i)%nat) t1 (m (X1 + i)%nat) t2 (m (X2 + i)%nat) * ti
     + quad_c t0 (m (X0 + i)%nat) t1 (m (X1 + i)%nat) t2 (m (X2 + i)%nat) * (ti * ti)) M) with (k := n) as [L1 L2]; [intros; lia| |lia|].
  - intros i m Hi _ E. rewrite !E; [reflexivity|..]; intros k Hk; unfold clear_of in *; lia.
  - split.
    + intros i p Hi Hp. etransitivity; [apply (L1 i Hi)|]. symmetry.
      exact (parabola_unique _ _ _ _ _ _ _ _ H1 H2 H3 Hp (quad_poly t0 (arr X0 M i) t1 (arr X1 M i) t2 (arr X2 M i) H1 H2 H3) ti).
    + intros a Ha. apply L2. intros i Hi. unfold outside in Ha. lia.
Qed.
Lemma quadterp_dx_val n t0 X0 t1 X1 t2 X2 ti Xi M : clear_of Xi n X0 n -> clear_of Xi n X1 n -> clear_of Xi n X2 n ->
  let M' := la_quadterp_dx n t0 X0 t1 X1 t2 X2 ti Xi M in
  (forall i, (i < n)%nat -> arr Xi M' i = quad_b t0 (arr X0 M i) t1 (arr X1 M i) t2 (arr X2 M i) + quad_c t0 (arr X0 M i) t1 (arr X1 M i) t2 (arr X2 M i) * (ti / 2)) /\
  (forall a, outside Xi n a -> M' a = M a).
Proof.
  intros C0 C1 C2. unfold la_quadterp_dx. cbv zeta.
  destruct (loop_map n (fun i => Xi + i)%nat (fun i m => quad_b t0 (m (X0 + i)%nat) t1 (m (X1 + i)%nat) t2 (m (X2 + i)%nat)
     + quad_c t0 (m (X0 + i)%nat) t1 (m (X1 + i)%nat) t2 (m (X2 + i)%nat) * (ti / 2)) M) with (k := n) as [L1 L2]; [intros; lia| |lia|].
  - intros i m Hi _ E. rewrite !E; [reflexivity|..]; intros k Hk; unfold clear_of in *; lia.
  - split; [exact L1|]. intros a Ha. apply L2. intros i Hi. unfold outside in Ha. lia.
Qed.
Lemma quad_deriv a b c p t l : (forall s, p s = a + b * s + c * s * s) -> derivable_pt_lim p t l -> l = b + 2 * c * t.
Proof.
  intros Hp D. assert (D2 : derivable_pt_lim p t (0 + (b * 1) + (c * 1 * t + c * t * 1))).
  { apply (derivable_pt_lim_ext (fun s => a + b * s + c * s * s)); [intros; now rewrite Hp|].
    apply derivable_pt_lim_plus; [apply derivable_pt_lim_plus; [apply derivable_pt_lim_const|]|].
    - apply derivable_pt_lim_scal. apply derivable_pt_lim_id.
    - apply (derivable_pt_lim_mult (fun s => c * s) id); [|apply derivable_pt_lim_id]. apply derivable_pt_lim_scal. apply derivable_pt_lim_id. }
  rewrite (uniqueness_limite _ _ _ _ D D2). ring.
Qed.
(** the derivative function is right exactly where the second derivative or the time vanishes *)
Lemma quadterp_dx_iff n t0 X0 t1 X1 t2 X2 ti Xi M i p l : t0 <> t1 -> t1 <> t2 -> t0 <> t2 ->
  clear_of Xi n X0 n -> clear_of Xi n X1 n -> clear_of Xi n X2 n -> (i < n)%nat ->
  parabola t0 (arr X0 M i) t1 (arr X1 M i) t2 (arr X2 M i) p -> derivable_pt_lim p ti l ->
  (arr Xi (la_quadterp_dx n t0 X0 t1 X1 t2 X2 ti Xi M) i = l <->
   ti = 0 \/ (arr X2 M i - arr X1 M i) * (t1 - t0) = (arr X1 M i - arr X0 M i) * (t2 - t1)).
Proof.
  intros H1 H2 H3 C0 C1 C2 Hi Hp Hd. destruct (quadterp_dx_val n t0 X0 t1 X1 t2 X2 ti Xi M C0 C1 C2) as [V _]. rewrite V by exact Hi.
  set (x0 := arr X0 M i) in *. set (x1 := arr X1 M i) in *. set (x2 := arr X2 M i) in *.
  pose proof (quad_poly t0 x0 t1 x1 t2 x2 H1 H2 H3) as Q. pose proof (parabola_unique _ _ _ _ _ _ _ _ H1 H2 H3 Hp Q) as U.
  assert (E : forall s, p s = quad_a t0 x0 t1 x1 t2 x2 + quad_b t0 x0 t1 x1 t2 x2 * s + quad_c t0 x0 t1 x1 t2 x2 * s * s) by (intros; rewrite U; ring).
  rewrite (quad_deriv _ _ _ _ _ _ E Hd).
  assert (CC : quad_c t0 x0 t1 x1 t2 x2 * ((t1 - t0) * (t2 - t0) * (t2 - t1)) = (x2 - x1) * (t1 - t0) - (x1 - x0) * (t2 - t1)) by (unfold quad_c; field; lra).
  set (b := quad_b _ _ _ _ _ _). set (c := quad_c _ _ _ _ _ _) in *. split.
  - intros F. assert (Z : c * ti = 0) by lra. apply Rmult_integral in Z. destruct Z as [Z|Z]; [right|now left]. rewrite Z in CC. lra.
  - intros [->|F]; [lra|]. assert (Z : c = 0).
    { rewrite F in CC. apply Rmult_eq_reg_r with ((t1 - t0) * (t2 - t0) * (t2 - t1)); [lra|]. repeat apply Rmult_integral_contrapositive_currified; lra. }
    rewrite Z. lra.
Qed.
