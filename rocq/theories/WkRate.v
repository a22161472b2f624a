(** Linear algebra of resolved rates: what a regularised inverse does to velocities. *)
From Coq Require Import Reals Arith List Bool Lra Lia.
From Verif Require Import MatModel MatSpec MatProofs LaModel LaSpec LaAlg LaProofs La2Proofs La3Proofs La4Proofs.
Open Scope R_scope.

Definition tr (A : nat -> nat -> R) (i j : nat) : R := A j i.

Section Ortho.
  Context (m K : nat) (e : nat -> nat -> R).
  Hypothesis O : forall k l, (k < K)%nat -> (l < K)%nat -> bsum m (fun i => e i k * e i l) = delta k l.
  Lemma ortho_coef a l : (l < K)%nat -> mulv m (tr e) (mulv K e a) l = a l.
  Proof.
    intros Hl. rewrite <- mulv_mmul. unfold mulv.
    rewrite (bsum_ext K _ (fun k => a k * delta l k)).
    - now apply bsum_delta.
    - intros k Hk. unfold mmul, tr. rewrite (O l k) by auto. ring.
  Qed.
  Lemma ortho_dot a b : dotp m (mulv K e a) (mulv K e b) = dotp K a b.
  Proof. rewrite dotp_mulv. apply dotp_ext; [|auto]. intros i Hi. now apply ortho_coef. Qed.
  Lemma bessel x : ssq K (mulv m (tr e) x) <= ssq m x.
  Proof.
    set (c := mulv m (tr e) x). pose proof (ssq_nonneg m (fun i => x i + - mulv K e c i)) as H.
    rewrite (ssq_split m x (fun i => - mulv K e c i)) in H.
    assert (E1 : dotp m x (fun i => - mulv K e c i) = - ssq K c).
    { transitivity (- dotp m x (mulv K e c)); [|now rewrite dotp_mulv].
      unfold dotp. rewrite (bsum_ext m _ (fun i => (-1) * (x i * mulv K e c i))) by (intros; ring). rewrite bsum_scal. ring. }
    assert (E2 : ssq m (fun i => - mulv K e c i) = ssq K c).
    { unfold ssq. transitivity (dotp m (mulv K e c) (mulv K e c)); [|apply ortho_dot]. unfold dotp. apply bsum_ext. intros. ring. }
    lra.
  Qed.
End Ortho.

Lemma bsum_le n f g : (forall i, (i < n)%nat -> f i <= g i) -> bsum n f <= bsum n g.
Proof. induction n as [|n IH]; cbn; intros H; [lra|]. specialize (H n ltac:(lia)) as H'. specialize (IH (fun i Hi => H i ltac:(lia))). lra. Qed.

Section Reg.
  Context (m n : nat) (A : nat -> nat -> R) (r : svdres) (HS : is_svd m n A r) (f : R -> R).
  Let K := Nat.min m n.
  Let U := sU r.
  Let V i l := sVt r l i.
  Let P := regularised m n r f.
  Lemma OU k l : (k < K)%nat -> (l < K)%nat -> bsum m (fun i => U i k * U i l) = delta k l.
  Proof. intros. apply HS; unfold K in *; lia. Qed.
  Lemma OV k l : (k < K)%nat -> (l < K)%nat -> bsum n (fun i => V i k * V i l) = delta k l.
  Proof. intros. apply HS; unfold K in *; lia. Qed.
  Lemma outer_mulv c F G b i : mulv m (outer K c F G) b i = mulv K F (fun l => c l * mulv m G b l) i.
  Proof.
    unfold mulv, outer. rewrite (bsum_ext m _ (fun j => bsum K (fun l => F i l * c l * G l j * b j))) by (intros; now rewrite <- bsum_scal_r).
    rewrite bsum_swap. apply bsum_ext. intros l Hl. rewrite <- bsum_scal. rewrite <- bsum_scal. apply bsum_ext. intros. ring.
  Qed.
  Lemma P_form b i : mulv m P b i = mulv K V (fun l => f (sS r l) * mulv m (tr U) b l) i.
  Proof. rewrite <- outer_mulv. reflexivity. Qed.
  Lemma A_form y i : (i < m)%nat -> mulv n A y i = mulv K U (fun l => sS r l * mulv n (tr V) y l) i.
  Proof.
    intros Hi. transitivity (mulv n (outer K (sS r) U (sVt r)) y i).
    - apply bsum_ext. intros j Hj. rewrite (svd_A m n A r HS) by auto. reflexivity.
    - unfold mulv at 1, outer. rewrite (bsum_ext n _ (fun j => bsum K (fun l => U i l * sS r l * sVt r l j * y j))) by (intros; now rewrite <- bsum_scal_r).
      rewrite bsum_swap. apply bsum_ext. intros l Hl. unfold mulv, tr, V. rewrite <- bsum_scal, <- bsum_scal. apply bsum_ext. intros. ring.
  Qed.
  Lemma AP_form b i : (i < m)%nat -> mulv n A (mulv m P b) i = mulv K U (fun l => sS r l * f (sS r l) * mulv m (tr U) b l) i.
  Proof.
    intros Hi. rewrite A_form by exact Hi. apply mulv_ext. intros l Hl.
    rewrite (mulv_ext n (tr V) _ (mulv K V (fun l => f (sS r l) * mulv m (tr U) b l))) by (intros; apply P_form).
    rewrite (ortho_coef n K V OV) by exact Hl. ring.
  Qed.
  Hypothesis F01 : forall l, (l < K)%nat -> 0 <= sS r l * f (sS r l) <= 1.
  Lemma reg_along b : 0 <= dotp m b (mulv n A (mulv m P b)).
  Proof.
    rewrite (dotp_ext m b b _ (mulv K U (fun l => sS r l * f (sS r l) * mulv m (tr U) b l))) by (intros; auto using AP_form).
    rewrite dotp_mulv. apply bsum_nonneg. intros l Hl. specialize (F01 l Hl).
    change (mulv m (fun i j => U j i) b l) with (mulv m (tr U) b l). set (c := mulv m (tr U) b l). pose proof (Rle_0_sqr c). unfold Rsqr in *. nra.
  Qed.
  Lemma reg_slower b : ssq m (mulv n A (mulv m P b)) <= ssq m b.
  Proof.
    unfold ssq at 1. rewrite (dotp_ext m _ (mulv K U (fun l => sS r l * f (sS r l) * mulv m (tr U) b l)) _ (mulv K U (fun l => sS r l * f (sS r l) * mulv m (tr U) b l))) by (intros; auto using AP_form).
    rewrite (ortho_dot m K U OU). eapply Rle_trans; [|apply (bessel m K U OU b)]. apply bsum_le. intros l Hl. specialize (F01 l Hl).
    set (c := mulv m (tr U) b l). pose proof (Rle_0_sqr c). unfold Rsqr in *.
    assert (0 <= sS r l * f (sS r l) * (sS r l * f (sS r l)) <= 1) by nra. nra.
  Qed.
  Lemma reg_bound b B : 0 <= B -> (forall l, (l < K)%nat -> B * (f (sS r l) * f (sS r l)) <= 1) -> B * ssq n (mulv m P b) <= ssq m b.
  Proof.
    intros HB Hf. unfold ssq at 1. rewrite (dotp_ext n _ (mulv K V (fun l => f (sS r l) * mulv m (tr U) b l)) _ (mulv K V (fun l => f (sS r l) * mulv m (tr U) b l))) by (intros; apply P_form).
    rewrite (ortho_dot n K V OV). eapply Rle_trans; [|apply (bessel m K U OU b)]. unfold dotp, ssq, dotp. rewrite <- bsum_scal. apply bsum_le. intros l Hl. specialize (Hf l Hl).
    set (c := mulv m (tr U) b l). pose proof (Rle_0_sqr c). unfold Rsqr in *. nra.
  Qed.
  (** the part of the secondary rates that shows in the result *)
  Lemma leak yp i : (i < m)%nat -> mulv n A yp i - mulv n A (mulv m P (mulv n A yp)) i =
    mulv K U (fun l => sS r l * (1 - sS r l * f (sS r l)) * mulv n (tr V) yp l) i.
  Proof.
    intros Hi. rewrite AP_form by exact Hi. rewrite A_form by exact Hi. unfold mulv at 1 3 6. rewrite <- bsum_minus. apply bsum_ext. intros l Hl.
    rewrite (mulv_ext m (tr U) (mulv n A yp) (mulv K U (fun l => sS r l * mulv n (tr V) yp l))) by (intros; now apply A_form).
    rewrite (ortho_coef m K U OU) by exact Hl. ring.
  Qed.
  Lemma leak_shows yp l : (l < K)%nat -> sS r l * (1 - sS r l * f (sS r l)) * mulv n (tr V) yp l <> 0 ->
    exists i, (i < m)%nat /\ mulv n A yp i - mulv n A (mulv m P (mulv n A yp)) i <> 0.
  Proof.
    intros Hl Hn. set (g := fun i => mulv n A yp i - mulv n A (mulv m P (mulv n A yp)) i).
    destruct (Req_dec (ssq m g) 0) as [Z|Z].
    - exfalso. apply Hn. pose proof (ortho_coef m K U OU (fun l => sS r l * (1 - sS r l * f (sS r l)) * mulv n (tr V) yp l) l Hl) as E. cbv beta in E.
      rewrite <- E. unfold mulv at 1. apply bsum_zero. intros i Hi. rewrite <- leak by exact Hi. fold (g i). rewrite (ssq_zero m g Z i Hi). ring.
    - assert (X : exists i, (i < m)%nat /\ g i <> 0); [|exact X].
      assert (D : forall k, (k <= m)%nat -> (exists i, (i < k)%nat /\ g i <> 0) \/ forall i, (i < k)%nat -> g i = 0).
      { induction k as [|k IH]; intros Hk; [right; intros; lia|]. destruct (IH ltac:(lia)) as [(i & ? & ?)|H]; [left; exists i; split; auto with arith|].
        destruct (Req_dec (g k) 0) as [E|E]; [right; intros i Hi; destruct (Nat.eq_dec i k); [now subst|apply H; lia]|left; exists k; auto]. }
      destruct (D m ltac:(lia)) as [H|H]; [exact H|]. exfalso. apply Z. apply bsum_zero. intros i Hi. rewrite H by exact Hi. ring.
  Qed.
End Reg.

Section Damp.
  Context (m n : nat) (k : R) (A P : nat -> nat -> R) (Hk : 0 < k).
  Hypothesis HP : forall i j, (i < n)%nat -> (j < m)%nat -> mmul m P (gram n k A) i j = A j i.
  Lemma damp_energy b : let y := mulv m P b in dotp m b (mulv n A y) = ssq m (mulv n A y) + k * ssq n y.
  Proof.
    intros y. assert (E : dotp m (fun l => mulv n A y l - b l) (mulv n A y) + k * ssq n y = 0).
    { rewrite dotp_mulv. unfold ssq, dotp. rewrite <- bsum_scal, <- bsum_plus. apply bsum_zero. intros i Hi.
      pose proof (damped_gradient m n k A P Hk HP b i Hi) as D. cbv zeta in D. fold y in D.
      transitivity (y i * (mulv m (fun i j => A j i) (fun l => mulv n A y l - b l) i + k * y i)); [ring|]. rewrite D. ring. }
    assert (F : dotp m (fun l => mulv n A y l - b l) (mulv n A y) = ssq m (mulv n A y) - dotp m b (mulv n A y)).
    { unfold ssq, dotp. rewrite <- bsum_minus. apply bsum_ext. intros. ring. }
    lra.
  Qed.
  Lemma damp_along b : 0 <= dotp m b (mulv n A (mulv m P b)).
  Proof. rewrite damp_energy. pose proof (ssq_nonneg m (mulv n A (mulv m P b))). pose proof (ssq_nonneg n (mulv m P b)). nra. Qed.
  Lemma damp_slower b : ssq m (mulv n A (mulv m P b)) <= ssq m b.
  Proof.
    pose proof (damp_energy b) as E. cbv zeta in E. set (y := mulv m P b) in *. pose proof (ssq_nonneg n y).
    pose proof (ssq_nonneg m (fun i => b i + - mulv n A y i)) as H1. rewrite (ssq_split m b (fun i => - mulv n A y i)) in H1.
    assert (E1 : dotp m b (fun i => - mulv n A y i) = - dotp m b (mulv n A y)).
    { unfold dotp. rewrite (bsum_ext m _ (fun i => (-1) * (b i * mulv n A y i))) by (intros; ring). rewrite bsum_scal. ring. }
    assert (E2 : ssq m (fun i => - mulv n A y i) = ssq m (mulv n A y)) by (apply bsum_ext; intros; ring).
    nra.
  Qed.
  Lemma damp_leak yp : (exists i, (i < m)%nat /\ mulv n A yp i <> 0) ->
    exists i, (i < m)%nat /\ mulv n A yp i - mulv n A (mulv m P (mulv n A yp)) i <> 0.
  Proof.
    intros (i0 & Hi0 & N). set (c := mulv n A yp) in *. set (y := mulv m P c).
    assert (D : forall k, (k <= m)%nat -> (exists i, (i < k)%nat /\ c i - mulv n A y i <> 0) \/ forall i, (i < k)%nat -> c i - mulv n A y i = 0).
    { induction k0 as [|j IH]; intros Hj; [right; intros; lia|]. destruct (IH ltac:(lia)) as [(i & ? & ?)|H]; [left; exists i; split; auto with arith|].
      destruct (Req_dec (c j - mulv n A y j) 0) as [E|E]; [right; intros i Hi; destruct (Nat.eq_dec i j); [now subst|apply H; lia]|left; exists j; auto]. }
    destruct (D m ltac:(lia)) as [H|H]; [exact H|]. exfalso. apply N.
    assert (Z : forall i, (i < n)%nat -> y i = 0).
    { intros i Hi. pose proof (damped_gradient m n k A P Hk HP c i Hi) as G. cbv zeta in G. fold y in G.
      assert (mulv m (fun i j => A j i) (fun l => mulv n A y l - c l) i = 0).
      { apply bsum_zero. intros l Hl. specialize (H l Hl). replace (mulv n A y l - c l) with 0 by lra. ring. }
      nra. }
    specialize (H i0 Hi0). assert (mulv n A y i0 = 0) by (apply bsum_zero; intros l Hl; rewrite Z by exact Hl; ring). lra.
  Qed.
End Damp.
