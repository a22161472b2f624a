(** Examples for collision and distance checking. *)
From Coq Require Import ZArith String List Bool Reals Arith Lia Lra ClassicalEpsilon.
From Verif Require Import TfModel TfSpec SgModel SgSpec ClModel ClSpec ClProofs ClAllowProofs SgExamples FcModel FcSpec FcGeom FcCheck FcAllow FcDist.
Import ListNotations.
Open Scope R_scope.

(** A box, a cylinder and a triangle on three frames, one unit apart. *)
Definition ex_gs : list geom :=
  [mkG true 2 (SBox 1 1 1) None; mkG true 1 (SCyl 2 1) None; mkG true 3 (SMesh 3 [0;0;0;1;0;0;0;1;0] 1 [0;1;2]%nat) None].
Definition ex_l : list (Z * nat) := [(0%Z, 0%nat); (1%Z, 1%nat); (2%Z, 2%nat)].
Definition ex_f (z : Z) : res QV := Ok (mkE (mkQ 0 0 0 1) (mkV (IZR z) 0 0)).
Lemma ex_good : Forall good_geom ex_gs /\ Forall plain ex_gs.
Proof.
  split; repeat (apply Forall_cons; [|]); try apply Forall_nil; cbn; auto.
  - repeat split; cbn; auto; lra.
  - repeat split; cbn; auto; lra.
  - repeat split; cbn; auto; try lra; try lia.
Qed.
Lemma ex_frames : forall z i, In (z, i) ex_l -> valid 3 z /\ (i < length ex_gs)%nat /\ exists E, ex_f z = Ok E /\ unit_qutr E.
Proof.
  intros z i [[= <- <-]|[[= <- <-]|[[= <- <-]|[]]]]; (split; [unfold valid; lia|split; [cbn; lia|]]); (eexists; split; [reflexivity|]);
    unfold unit_qutr, unitq, norm2; cbn; ring.
Qed.
(** The box and the cylinder share a point. *)
Lemma ex_share : exists g1 g2 E1 E2 x, body ex_gs ex_l 0 g1 /\ body ex_gs ex_l 1 g2 /\ ex_f 0 = Ok E1 /\ ex_f 1 = Ok E2 /\ drawn g1 E1 x /\ drawn g2 E2 x.
Proof.
  exists (mkG true 2 (SBox 1 1 1) None), (mkG true 1 (SCyl 2 1) None), (mkE (mkQ 0 0 0 1) (mkV 0 0 0)), (mkE (mkQ 0 0 0 1) (mkV 1 0 0)), (mkV 1 0 0).
  repeat split; try reflexivity.
  - exists 0%nat. repeat split; auto. now left.
  - exists 1%nat. repeat split; auto. right; now left.
  - exists (mkV (1/2) 0 0). split; [cbn; rewrite !Rabs_right; lra|]. unfold qutr_tf, tf_qv, vadd, vscale; cbn. f_equal; field.
  - exists (mkV 0 0 0). split; [cbn; lra|]. unfold qutr_tf, tf_qv, vadd, vscale; cbn. f_equal; field.
Qed.
(** An exact narrow phase and broad phases. *)
Definition a_hit (a b : placed) : bool := if excluded_middle_informative (exists x, occupied a x /\ occupied b x) then true else false.
Lemma a_hit_exact : exact_hit a_hit.
Proof. intros a b. unfold a_hit. destruct (excluded_middle_informative _); split; auto; try discriminate; tauto. Qed.
Definition all_pairs (n : nat) : list (nat * nat) := filter (fun '(i, j) => negb (Nat.eqb i j)) (list_prod (seq 0 n) (seq 0 n)).
Lemma all_visits n : visits_all n (all_pairs n).
Proof.
  assert (H : forall i j, In (i, j) (all_pairs n) <-> (i < n)%nat /\ (j < n)%nat /\ i <> j).
  { intros i j. unfold all_pairs. rewrite filter_In, in_prod_iff, !in_seq, negb_true_iff, Nat.eqb_neq. lia. }
  split; [intros i j K; now apply H|]. intros i j Li Lj Ne. left. now apply H.
Qed.
Lemma all_visited hit ps : visits hit ps (all_pairs (length ps)).
Proof.
  destruct (all_visits (length ps)) as [A B]. split; [exact A|]. intros i j a b Ne X Y _. apply B; auto; apply nth_error_Some; congruence.
Qed.

(** A scene with two frames and a geometry on each. *)
Definition h_two : list cop :=
  [CSg (fixed "" "a" q1 v0); CSg (fixed "" "b" q1 (mkV 1 0 0)); CSg (OGeom "a" 0)] ++ CSg (OGeom "b" 1) :: [CSg OInit].
Lemma two_kept : kept (sg_calls h_two).
Proof.
  intros h1 o h2 E n m A D. cbn in E.
  do 5 (destruct h1 as [|? h1]; [discriminate A|]; injection E as <- E). destruct h1; discriminate E.
Qed.
Lemma two_scene : exists k, crun clsg_create (h_two ++ [CInit]) = Ok k /\ s_dirty (k_sg k) = false /\
  named (declared (sg_calls h_two)) /\ kept (sg_calls h_two) /\ map_geom (k_sg k) = Ok [(0%Z, 0%nat); (1%Z, 1%nat)] /\ length (s_frames (k_sg k)) = 2%nat.
Proof.
  exists (kget (h_two ++ [CInit])). split; [apply kget_by; vm_compute; reflexivity|]. split; [vm_compute; reflexivity|].
  split; [reflexivity|]. split; [apply two_kept|]. split; vm_compute; reflexivity.
Qed.
(** Two balls whose distance is measured. *)
Definition ball (z : Z) (x r : R) : placed := mkP z (FSphere r) (mkE (mkQ 0 0 0 1) (mkV x 0 0)).
