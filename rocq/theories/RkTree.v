(** The order conditions of the published tableaux. *)
From Coq Require Import Reals List ZArith Arith Lra Lia.
From Verif Require Import MatModel TrModel RkModel RkSpec RkProofs.
Import ListNotations.
Open Scope R_scope.

Lemma vertices_node : forall ts, vertices (Node ts) = S (list_sum (map vertices ts)).
Proof. reflexivity. Qed.
Lemma forest_nil : list_sum (map vertices []) = 0%nat.
Proof. reflexivity. Qed.
Lemma forest_cons : forall t ts, list_sum (map vertices (t :: ts)) = (vertices t + list_sum (map vertices ts))%nat.
Proof. reflexivity. Qed.
Ltac vz H := repeat (rewrite ?vertices_node, ?forest_nil, ?forest_cons in H).
Ltac grow H :=
  vz H; try (exfalso; clear - H; lia);
  match type of H with
  | context [list_sum (map vertices ?ts)] => is_var ts; destruct ts as [|[?] ts]; grow H
  | _ => idtac
  end.
Ltac wt := cbn -[Rmult Rplus Rdiv Rinv IZR Ropp INR]; unfold Rdiv; cbn [INR]; field.

Ltac order_by HT :=
  split; [intros i Hi; cbn in Hi; do 8 (try (destruct i as [|i]; [cbn -[Rmult Rplus Rdiv Rinv IZR Ropp]; field|])); exfalso; lia|
   intros [ts] H; grow H; unfold weight, HT; wt].

Lemma euler_order : has_order 1 euler_T euler_b.
Proof. order_by euler_T. Qed.
Lemma heun_order : has_order 2 heun_T heun_b.
Proof. order_by heun_T. Qed.
Lemma rk4_order : has_order 4 rk4_T rk4_b.
Proof. order_by rk4_T. Qed.
Lemma bs3_order : has_order 3 bs_T bs_b3.
Proof. order_by bs_T. Qed.
Lemma bs2_order : has_order 2 bs_T bs_b2.
Proof. order_by bs_T. Qed.
Lemma rkf4_order : has_order 4 rkf_T rkf_b4.
Proof. order_by rkf_T. Qed.
Lemma rkf5_order : has_order 5 rkf_T rkf_b5.
Proof. order_by rkf_T. Qed.
Lemma ck5_order : has_order 5 ck_T ck_b5.
Proof. order_by ck_T. Qed.
Lemma ck4_order : has_order 4 ck_T ck_b4.
Proof. order_by ck_T. Qed.
Lemma dp5_order : has_order 5 dp_T dp_b5.
Proof. order_by dp_T. Qed.
Lemma dp4_order : has_order 4 dp_T dp_b4.
Proof. order_by dp_T. Qed.
