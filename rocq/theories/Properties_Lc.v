(** Theorems about joint rates under limits: aa_rx_wk_dx2dq_lc3. *)
From Coq Require Import ZArith String List Bool Reals Lra Lia ClassicalEpsilon.
From Verif Require Import TfModel TfSpec SgModel SgSpec SgKinSpec SgClaims2 SgExamples IkSpec IkObj
  MatModel MatSpec MatProofs LaModel LaSpec LaAlg WkRateModel WkRateSpec WkRate2 LcModel LcSpec LcProofs LcProofs2 LcExamples Properties_WkRate.
Import ListNotations.
Open Scope R_scope.

(** C84: chains with six joints.  [colmat l] is the matrix whose columns are [l]. *)
Theorem C84_six_joints :
  forall h s root tip tz ls ss q0 abs, chain_of h s root tip tz ls ss ->
  (forall m, In m (root :: ls) -> posed_at (declared h) s q0 abs m) ->
  let n := length (ss_configs ss) in (0 < n)%nat ->
  forall pos vel acc, limits_of (declared h) s ls LPos pos -> limits_of (declared h) s ls LVel vel -> limits_of (declared h) s ls LAcc acc ->
  n = 6%nat ->
  exists l, chain_jacobian s abs ss = Ok l /\ velocity_matrix (declared h) root tip ls q0 (colmat l) /\
  forall o gesdd junk r M0 solve dt dx_r q_a dq_a dq_r,
  (0 < wo_s2min o \/ wo_kdls o <= 0 -> decomposes gesdd 6 n (colmat l) r) ->
  0 < dt -> length dx_r = 6%nat -> length q_a = n -> length dq_a = n -> length dq_r = n -> sound solve ->
  let run := wk_dx2dq_lc3 gesdd junk M0 solve o s abs ss dt dx_r q_a dq_a dq_r n in
  let J := colmat l in let vec q i := nth i q 0 in
  (** either an error and no rates, or rates within the limits; no component of the velocity of the tip
      passes the one asked for or turns away from it *)
  ((exists code, code <> 0%Z /\ run = Done (code, None)) \/
   exists dq, run = Done (0%Z, Some dq) /\ length dq = n /\ all_allowed dt pos vel acc q_a dq_a dq /\
     (regular o n r -> (forall b, exists z, forall i, (i < 6)%nat -> mulv n J z i = b i) ->
      forall i, (i < 6)%nat -> betw (mulv n J (vec dq_a) i) (vec dx_r i) (mulv n J (vec dq) i))) /\
  (** rates are found if the present ones are allowed *)
  (complete solve -> all_allowed dt pos vel acc q_a dq_a dq_a -> exists dq, run = Done (0%Z, Some dq)) /\
  (** and when the rates for the velocity asked for are allowed, those are the result *)
  (regular o n r -> forall y, length y = n -> nearest_solution n J (vec dx_r) (vec dq_r) (vec y) -> all_allowed dt pos vel acc q_a dq_a y ->
    (complete solve -> exists dq, run = Done (0%Z, Some dq)) /\
    (optimal solve -> forall dq, run = Done (0%Z, Some dq) -> dq = y)).
Proof. exact c84_six. Qed.
Print Assumptions C84_six_joints.

(** C84, violated with more than six joints: the joints past the sixth get the rates nearest to those they
    have, the others the rates nearest to the secondary ones. *)
Theorem C84_more_joints_mixed_refuted :
  forall h s root tip tz ls ss q0 abs, chain_of h s root tip tz ls ss ->
  (forall m, In m (root :: ls) -> posed_at (declared h) s q0 abs m) ->
  let n := length (ss_configs ss) in (0 < n)%nat ->
  forall pos vel acc, limits_of (declared h) s ls LPos pos -> limits_of (declared h) s ls LVel vel -> limits_of (declared h) s ls LAcc acc ->
  (6 < n)%nat -> forall l, chain_jacobian s abs ss = Ok l ->
  forall o gesdd junk r M0 solve dt dx_r q_a dq_a dq_r,
  (0 < wo_s2min o \/ wo_kdls o <= 0 -> decomposes gesdd 6 n (colmat l) r) -> regular o n r ->
  0 < dt -> length dx_r = 6%nat -> length q_a = n -> length dq_a = n -> length dq_r = n -> optimal solve ->
  let run := wk_dx2dq_lc3 gesdd junk M0 solve o s abs ss dt dx_r q_a dq_a dq_r n in
  let J := colmat l in let vec q i := nth i q 0 in
  forall y y0, length y = n -> nearest_solution n J (vec dx_r) (vec dq_r) (vec y) -> nearest_solution n J (vec dx_r) (vec dq_a) y0 ->
  all_allowed dt pos vel acc q_a dq_a y ->
  (forall dq, run = Done (0%Z, Some dq) -> forall i, (i < n)%nat -> nth i dq 0 = if Nat.ltb i 6 then nth i y 0 else y0 i) /\
  (complete solve \/ solve = corner -> exists dq, run = Done (0%Z, Some dq)).
Proof. exact c84_mixed. Qed.
Print Assumptions C84_more_joints_mixed_refuted.
Theorem C84_more_joints_idle_refuted :
  forall h s root tip tz ls ss q0 abs, chain_of h s root tip tz ls ss ->
  (forall m, In m (root :: ls) -> posed_at (declared h) s q0 abs m) ->
  let n := length (ss_configs ss) in (0 < n)%nat ->
  forall pos vel acc, limits_of (declared h) s ls LPos pos -> limits_of (declared h) s ls LVel vel -> limits_of (declared h) s ls LAcc acc ->
  (6 < n)%nat -> forall l, chain_jacobian s abs ss = Ok l ->
  forall o gesdd junk r M0 solve dt dx_r q_a dq_a dq_r dq,
  (0 < wo_s2min o \/ wo_kdls o <= 0 -> decomposes gesdd 6 n (colmat l) r) ->
  0 < dt -> length dx_r = 6%nat -> length q_a = n -> length dq_a = n -> length dq_r = n -> sound solve ->
  (forall i, (i < 6)%nat -> mulv n (colmat l) (fun k => nth k dq_a 0) i = nth i dx_r 0) ->
  wk_dx2dq_lc3 gesdd junk M0 solve o s abs ss dt dx_r q_a dq_a dq_r n = Done (0%Z, Some dq) ->
  forall i, (6 <= i < n)%nat -> nth i dq 0 = nth i dq_a 0.
Proof. exact c84_more. Qed.
Print Assumptions C84_more_joints_idle_refuted.
(** so that a limit is broken, and the tip faster than asked for *)
Theorem C84_more_joints_limits_refuted :
  exists h s root tip tz ls ss q0 abs l pos vel acc o gesdd junk r solve dt dx_r q_a dq_a dq_r y dq,
  chain_of h s root tip tz ls ss /\ (forall m, In m (root :: ls) -> posed_at (declared h) s q0 abs m) /\
  length (ss_configs ss) = 7%nat /\ chain_jacobian s abs ss = Ok l /\
  limits_of (declared h) s ls LPos pos /\ limits_of (declared h) s ls LVel vel /\ limits_of (declared h) s ls LAcc acc /\
  decomposes gesdd 6 7 (colmat l) r /\ regular o 7 r /\ optimal solve /\ 0 < dt /\
  length dx_r = 6%nat /\ length q_a = 7%nat /\ length dq_a = 7%nat /\ length dq_r = 7%nat /\ length y = 7%nat /\
  nearest_solution 7 (colmat l) (fun i => nth i dx_r 0) (fun i => nth i dq_r 0) (fun i => nth i y 0) /\
  all_allowed dt pos vel acc q_a dq_a dq_a /\ all_allowed dt pos vel acc q_a dq_a y /\
  (forall M0, wk_dx2dq_lc3 gesdd junk M0 solve o s abs ss dt dx_r q_a dq_a dq_r 7 = Done (0%Z, Some dq)) /\
  ~ all_allowed dt pos vel acc q_a dq_a dq /\
  mulv 7 (colmat l) (fun i => nth i y 0) 0 = nth 0 dx_r 0 /\ mulv 7 (colmat l) (fun i => nth i dq_a 0) 0 = 0 /\
  nth 0 dx_r 0 = 2 /\ mulv 7 (colmat l) (fun i => nth i dq 0) 0 = 3.
Proof. exact c84_more_refuted. Qed.
Print Assumptions C84_more_joints_limits_refuted.

(** C84, violated with fewer than six joints: six rates are written, past the end of the array *)
Theorem C84_fewer_joints_refuted :
  forall h s root tip tz ls ss q0 abs, chain_of h s root tip tz ls ss ->
  (forall m, In m (root :: ls) -> posed_at (declared h) s q0 abs m) ->
  let n := length (ss_configs ss) in (0 < n)%nat ->
  forall pos vel acc, limits_of (declared h) s ls LPos pos -> limits_of (declared h) s ls LVel vel -> limits_of (declared h) s ls LAcc acc ->
  (n < 6)%nat -> forall l, chain_jacobian s abs ss = Ok l ->
  forall o gesdd junk r M0 solve dt dx_r q_a dq_a dq_r,
  (0 < wo_s2min o \/ wo_kdls o <= 0 -> decomposes gesdd 6 n (colmat l) r) ->
  0 < dt -> length dx_r = 6%nat -> length q_a = n -> length dq_a = n -> length dq_r = n -> complete solve ->
  all_allowed dt pos vel acc q_a dq_a dq_a ->
  wk_dx2dq_lc3 gesdd junk M0 solve o s abs ss dt dx_r q_a dq_a dq_r n = Undef.
Proof. exact c84_fewer. Qed.
Print Assumptions C84_fewer_joints_refuted.

(** C84, violated without acceleration limits: the result does not depend on where the joints are, so that it
    takes no notice of position limits *)
Theorem C84_position_limits_refuted :
  forall h s root tip tz ls ss acc gesdd junk M0 solve o abs dt dx_r q_a q_a' dq_a dq_r ldq,
  chain_of h s root tip tz ls ss -> limits_of (declared h) s ls LAcc acc -> (forall l, In l acc -> l = None) ->
  length q_a = length (ss_configs ss) -> length q_a' = length (ss_configs ss) ->
  wk_dx2dq_lc3 gesdd junk M0 solve o s abs ss dt dx_r q_a dq_a dq_r ldq = wk_dx2dq_lc3 gesdd junk M0 solve o s abs ss dt dx_r q_a' dq_a dq_r ldq.
Proof. exact c84_no_acc. Qed.
Print Assumptions C84_position_limits_refuted.

(** C84: time steps that are not positive are reported; wrong sizes end the program *)
Theorem C84_refuses :
  forall gesdd junk M0 solve o s abs ss dt dx_r q_a dq_a dq_r ldq, let n := length (ss_configs ss) in
  (dt <= 0 -> wk_dx2dq_lc3 gesdd junk M0 solve o s abs ss dt dx_r q_a dq_a dq_r ldq = Done ((-1)%Z, None)) /\
  (0 < dt -> length dx_r <> 6%nat \/ length q_a <> n \/ length dq_a <> n \/ length dq_r <> n \/ ldq <> n ->
    wk_dx2dq_lc3 gesdd junk M0 solve o s abs ss dt dx_r q_a dq_a dq_r ldq = Fail).
Proof. exact c84_refuses. Qed.
Print Assumptions C84_refuses.

(** The first six joints of the gantry; a solver that is sound and optimal; one that is sound and complete. *)
Example C84_nonvacuous : exists ss,
  chain_of h_gan gan "" "f6" 5 (gan_path 6) ss /\ (forall m, In m (""%string :: gan_path 6) -> posed_at (declared h_gan) gan gan_cfg gan_abs m) /\
  length (ss_configs ss) = 6%nat /\ chain_jacobian gan gan_abs ss = Ok (gan_cols 6) /\
  limits_of (declared h_gan) gan (gan_path 6) LPos [Some (-5, 5); None; None; None; None; None] /\
  limits_of (declared h_gan) gan (gan_path 6) LVel [Some (-3, 3); None; None; None; None; None] /\
  limits_of (declared h_gan) gan (gan_path 6) LAcc [Some (-10, 10); None; None; None; None; None] /\
  decomposes (fun _ _ _ => six_svd) 6 6 (colmat (gan_cols 6)) six_svd /\ regular wk_opts_create 6 six_svd /\
  (forall b, exists z, forall i, (i < 6)%nat -> mulv 6 (colmat (gan_cols 6)) z i = b i) /\
  optimal corner /\ exists solve, sound solve /\ complete solve.
Proof.
  destruct (gan_chain 6 "f6" 5) as (ss & C & Ef & Ec); [cbn; auto|]. exists ss.
  split; [exact C|]. split; [intros m H; apply gan_posed; cbn [gan_path firstn In] in *; tauto|]. split; [rewrite Ec; reflexivity|]. split; [apply gan_jac; auto|].
  do 3 (split; [apply gan_limits; auto|]). split; [split; [exact six_is_svd|reflexivity]|]. split.
  { left. cbn [wk_opts_create wo_s2min]. split; [lra|]. intros l _. right. cbn [six_svd sS]. apply Rle_trans with (sqrt 1); [apply sqrt_le_1; lra|rewrite sqrt_1; lra]. }
  split.
  { intros b. exists b. intros i Hi. do 6 (destruct i as [|i]; [cbn; ring|]). lia. }
  split; [exact corner_optimal|].
  exists (fun p => match excluded_middle_informative (exists x, feasible p x) with left H => (0%Z, proj1_sig (constructive_indefinite_description _ H)) | right _ => (1%Z, fun _ => 0) end).
  split.
  - intros p x E. destruct excluded_middle_informative as [H|H]; [|discriminate E]. destruct constructive_indefinite_description as [y Hy]. cbn [proj1_sig] in E. now injection E as <-.
  - intros p x F. destruct excluded_middle_informative as [H|H]; [eauto|]. exfalso. eauto.
Qed.
(** Two joints of the gantry, and a chain without acceleration limits. *)
Example C84_small_nonvacuous : exists ss ss2,
  chain_of h_gan gan "" "f2" 1 (gan_path 2) ss /\ (0 < length (ss_configs ss) < 6)%nat /\ chain_jacobian gan gan_abs ss = Ok (gan_cols 2) /\
  chain_of h_two (get h_two) "" "b" 1 ["a"; "b"]%string ss2 /\ limits_of (declared h_two) (get h_two) ["a"; "b"]%string LAcc [None; None].
Proof.
  destruct (gan_chain 2 "f2" 1) as (ss & C & Ef & Ec); [cbn; auto|]. destruct two_chain as (ss2 & C2 & _). exists ss, ss2.
  split; [exact C|]. split; [rewrite Ec; cbn; lia|]. split; [apply gan_jac; auto|]. split; [exact C2|].
  unfold limits_of. assert (D : map d_cfg (joint_decls (declared h_two) ["a"; "b"]%string) = ["qa"; "qb"]%string) by reflexivity.
  destruct (joint_decls (declared h_two) ["a"; "b"]%string) as [|d1 [|d2 [|d3 l]]]; try discriminate D. injection D as D1 D2.
  repeat constructor; rewrite ?D1, ?D2; eexists; (split; [vm_compute; reflexivity|]); (split; [discriminate|]); vm_compute; reflexivity.
Qed.
