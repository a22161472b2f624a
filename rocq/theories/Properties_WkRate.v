(** Theorems about resolved-rate control: aa_rx_wk_dx2dq, aa_rx_wk_dx2dq_np and aa_rx_wk_dqcenter. *)
From Coq Require Import ZArith String List Bool Reals Lra Lia.
From Verif Require Import TfModel TfSpec SgModel SgSpec SgKinSpec SgClaims2 SgExamples IkSpec IkObj
  MatModel MatSpec MatProofs LaModel LaSpec LaAlg WkRateModel WkRateSpec WkRate2 WkRate4.
Import ListNotations.
Open Scope R_scope.

(** C82: the joint rates for a velocity of the tip.  [colmat l] is the matrix whose columns are [l]. *)
Theorem C82_joint_rates :
  forall h s root tip tz ls ss q0 abs, chain_of h s root tip tz ls ss ->
  (forall m, In m (root :: ls) -> posed_at (declared h) s q0 abs m) ->
  let n := length (ss_configs ss) in (0 < n)%nat ->
  exists l, chain_jacobian s abs ss = Ok l /\ velocity_matrix (declared h) root tip ls q0 (colmat l) /\
    forall o gesdd junk r dx dq w M, (0 < wo_s2min o \/ wo_kdls o <= 0 -> decomposes gesdd 6 n (colmat l) r) ->
    v_len dx = 6%nat -> v_len dq = n -> good_vec dq -> apart (in_vec dx) (in_vec dq) ->
    vec_off w (12 * n + svd_work 6 n) dx -> vec_off w (12 * n + svd_work 6 n) dq ->
    exists M', wk_dx2dq gesdd junk o s abs ss dx dq w M = Done M' /\
      rates_for o n (colmat l) r (vget dx M) (vget dq M') /\
      (forall a, outside w (12 * n + svd_work 6 n) a -> ~ in_vec dq a -> M' a = M a).
Proof. exact c82_rates. Qed.
Print Assumptions C82_joint_rates.

(** C82: with secondary rates.  Away from singularities and without damping they do not show at the tip. *)
Theorem C82_secondary_rates :
  forall h s root tip tz ls ss q0 abs, chain_of h s root tip tz ls ss ->
  (forall m, In m (root :: ls) -> posed_at (declared h) s q0 abs m) ->
  let n := length (ss_configs ss) in (0 < n)%nat ->
  exists l, chain_jacobian s abs ss = Ok l /\ velocity_matrix (declared h) root tip ls q0 (colmat l) /\
    forall o gesdd junk r dx dqr dq w M, (0 < wo_s2min o \/ wo_kdls o <= 0 -> decomposes gesdd 6 n (colmat l) r) ->
    v_len dx = 6%nat -> v_len dqr = n -> v_len dq = n -> good_vec dq -> apart (in_vec dx) (in_vec dq) -> apart (in_vec dqr) (in_vec dq) ->
    let W := (12 * n + n * n + svd_work 6 n)%nat in
    vec_off w W dx -> vec_off w W dqr -> vec_off w W dq ->
    exists M' M0, wk_dx2dq_np gesdd junk o s abs ss dx dqr dq w M = Done M' /\
      wk_dx2dq gesdd junk o s abs ss dx dq w M = Done M0 /\
      (forall a, outside w W a -> ~ in_vec dq a -> M' a = M a) /\
      let J := colmat l in let b := vget dx M in let yp := vget dqr M in let y := vget dq M' in let y0 := vget dq M0 in
      (regular o n r -> nearest_solution n J b yp y /\ forall i, (i < 6)%nat -> mulv n J y i = mulv n J y0 i) /\
      ((forall i, (i < 6)%nat -> mulv n J yp i = 0) -> forall i, (i < n)%nat -> y i = y0 i + yp i) /\
      (** violated with damping, whenever the secondary rates alone would move the tip *)
      (wo_s2min o <= 0 -> 0 < wo_kdls o -> (exists i, (i < 6)%nat /\ mulv n J yp i <> 0) ->
        exists i, (i < 6)%nat /\ mulv n J y i <> mulv n J y0 i) /\
      (** violated near a singularity, whenever the secondary rates have a part along the singular direction *)
      (0 < wo_s2min o -> (exists k, (k < Nat.min 6 n)%nat /\ 0 < sS r k < sqrt (wo_s2min o) /\ mulv n (sVt r) yp k <> 0) ->
        exists i, (i < 6)%nat /\ mulv n J y i <> mulv n J y0 i).
Proof. exact c82_np. Qed.
Print Assumptions C82_secondary_rates.

(** C82: secondary rates towards the middle of the joint limits *)
Theorem C82_center_rates :
  forall h s root tip tz ls ss lims, chain_of h s root tip tz ls ss -> limits_seen (declared h) s ls lims -> ranges lims ->
  forall o q dqr M, let n := length (ss_configs ss) in
  v_len q = n -> v_len dqr = n -> good_vec dqr -> apart (in_vec q) (in_vec dqr) ->
  exists M', wk_dqcenter o s ss q dqr M = Done M' /\
    vec_becomes dqr M M' (fun i => match nth_error lims i with Some l => center_rate (wo_np o) (vget q M i) l | None => 0 end).
Proof. exact c82_center. Qed.
Print Assumptions C82_center_rates.
Theorem C82_center_toward :
  forall g x a b, 0 < g -> a < b -> let y := center_rate g x (Some (a, b)) in
  (x < (a + b) / 2 -> 0 < y) /\ ((a + b) / 2 < x -> y < 0) /\ (a <= x <= b -> Rabs y <= g / 2).
Proof. exact center_toward. Qed.
Print Assumptions C82_center_toward.

(** C82: wrong sizes, and chains without joints, end the program *)
Theorem C82_wrong_sizes :
  forall gesdd junk o s abs ss dx dqr dq q w M, let n := length (ss_configs ss) in
  (v_len dx <> 6%nat \/ v_len dq <> n -> wk_dx2dq gesdd junk o s abs ss dx dq w M = Fail) /\
  (v_len dx <> 6%nat \/ v_len dqr <> n \/ v_len dq <> n -> wk_dx2dq_np gesdd junk o s abs ss dx dqr dq w M = Fail) /\
  (v_len q <> n \/ v_len dqr <> n -> wk_dqcenter o s ss q dqr M = Fail).
Proof. exact c82_sizes. Qed.
Print Assumptions C82_wrong_sizes.
Theorem C82_no_joints :
  forall gesdd junk o s abs ss dx dqr dq w M, ss_configs ss = [] ->
  wk_dx2dq gesdd junk o s abs ss dx dq w M = Fail /\ wk_dx2dq_np gesdd junk o s abs ss dx dqr dq w M = Fail.
Proof. exact c82_no_joints. Qed.
Print Assumptions C82_no_joints.

(** Two sliders along the same line: the tip can be held still while both move. *)
Definition two_abs : list QV := [mkE q1 v0; mkE q1 (mkV 5 0 0)].
Definition two_cfg (c : string) : R := if String.eqb c "qb" then 5 else 0.
Definition two_svd : svdres :=
  {| sU := delta; sS := fun l => match l with 0%nat => sqrt 2 | _ => 0 end;
     sVt := fun l j => match l, j with 1%nat, 1%nat => - (/ sqrt 2) | _, _ => / sqrt 2 end |}.
Lemma two_chain : exists ss, chain_of h_two (get h_two) "" "b" 1 ["a"; "b"]%string ss /\ ss_frames ss = [0; 1]%Z /\ ss_configs ss = [0; 1]%Z.
Proof.
  assert (Rd : ready h_two (get h_two)) by ready.
  assert (I0 : id_of (get h_two) "" FRAME_ROOT) by (split; [vm_compute; reflexivity|discriminate]).
  assert (I1 : id_of (get h_two) "b" 1) by (split; [vm_compute; reflexivity|discriminate]).
  assert (P : path (declared h_two) "" "b" ["a"; "b"]%string).
  { change ["a"; "b"]%string with (([] ++ ["a"%string]) ++ ["b"%string])%list.
    do 2 (eapply path_step; [discriminate|discriminate|reflexivity|]; cbn [d_parent]). constructor. }
  eexists (mkSS _ _ _). split; [|split].
  - constructor; auto using two_forest, two_proper.
    + discriminate.
    + left. exact P.
    + exists FRAME_ROOT, (fun _ => 0%Z), 2%nat. split; [exact I0|]. split; [vm_compute; reflexivity|]. vm_compute. reflexivity.
  - reflexivity.
  - reflexivity.
Qed.
Lemma two_posed m : In m ["" ; "a"; "b"]%string -> posed_at (declared h_two) (get h_two) two_cfg two_abs m.
Proof.
  intros [<-|[<-|[<-|[]]]]; [now left|right; exists 0%nat|right; exists 1%nat]; eexists;
    (split; [split; [vm_compute; reflexivity|discriminate]|]); (split; [reflexivity|]); (split; [exact unit_q1|]); intros p.
  - eapply loc_frame; [discriminate|reflexivity|]. apply loc_end; [reflexivity|]. destruct p. cbv -[IZR Rplus Rmult Ropp Rminus Rdiv Rinv]. f_equal; ring.
  - do 2 (eapply loc_frame; [discriminate|reflexivity|]). apply loc_end; [reflexivity|]. destruct p. cbv -[IZR Rplus Rmult Ropp Rminus Rdiv Rinv]. f_equal; ring.
Qed.
Lemma two_is_svd A : (forall i j, (i < 6)%nat -> (j < 2)%nat -> A i j = delta i 0) -> is_svd 6 2 A two_svd.
Proof.
  intros H. assert (S2 : sqrt 2 * sqrt 2 = 2) by (apply sqrt_sqrt; lra). assert (S0 : 0 < sqrt 2) by (apply sqrt_lt_R0; lra).
  assert (I2 : / sqrt 2 * / sqrt 2 = / 2) by (rewrite <- Rinv_mult, S2; reflexivity).
  split; [|split; [|split; [|split]]].
  - intros i j Hi Hj. rewrite H by assumption. cbn [Nat.min bsum two_svd sU sS sVt]. destruct j as [|[|j]]; [| |lia]; rewrite Rmult_assoc, Rinv_r by lra; ring.
  - intros k l Hk Hl. cbn [two_svd sU]. rewrite (bsum_ext 6 _ (fun i => delta i k * delta l i)) by (intros; f_equal; apply delta_sym). now rewrite bsum_delta, delta_sym by exact Hl.
  - intros k l Hk Hl. destruct k as [|[|k]], l as [|[|l]]; try lia; cbn [bsum two_svd sVt]; unfold delta; cbn [Nat.eqb]; lra.
  - intros [|[|l]] Hl; cbn [two_svd sS]; lra.
  - intros [|[|k]] [|[|l]] Hk Hl; cbn [two_svd sS]; try lra; cbn in Hl; lia.
Qed.
Example C82_nonvacuous : exists ss l,
  chain_of h_two (get h_two) "" "b" 1 ["a"; "b"]%string ss /\
  (forall m, In m ["" ; "a"; "b"]%string -> posed_at (declared h_two) (get h_two) two_cfg two_abs m) /\
  length (ss_configs ss) = 2%nat /\ chain_jacobian (get h_two) two_abs ss = Ok l /\
  decomposes (fun _ _ _ => two_svd) 6 2 (colmat l) two_svd /\
  regular wk_opts_create 2 two_svd /\
  (exists i, (i < 6)%nat /\ mulv 2 (colmat l) (fun i => INR i) i <> 0) /\
  (exists k, (k < Nat.min 6 2)%nat /\ 0 < sS two_svd k < sqrt 4 /\ mulv 2 (sVt two_svd) (fun i => INR i) k <> 0) /\
  vec_off 100 (12 * 2 + 2 * 2 + svd_work 6 2) (mkDV 6 0 1) /\ vec_off 100 (12 * 2 + 2 * 2 + svd_work 6 2) (mkDV 2 10 3).
Proof.
  destruct two_chain as (ss & C & Ef & Ec). exists ss, [(v0, ux); (v0, ux)].
  assert (J : chain_jacobian (get h_two) two_abs ss = Ok [(v0, ux); (v0, ux)]).
  { unfold chain_jacobian. rewrite Ef, Ec. calc. }
  assert (S2 : sqrt 2 * sqrt 2 = 2) by (apply sqrt_sqrt; lra). assert (S0 : 0 < sqrt 2) by (apply sqrt_lt_R0; lra).
  split; [exact C|]. split; [exact two_posed|]. split; [now rewrite Ec|]. split; [exact J|]. split; [split; [|reflexivity]|].
  { apply two_is_svd. intros i j Hi Hj. destruct j as [|[|j]]; [| |lia]; do 6 (destruct i as [|i]; [reflexivity|]); lia. }
  split; [left; split; [cbn; lra|]|split; [|split; [|split]]].
  - intros [|[|l]] Hl; cbn [two_svd sS]; [right|now left|cbn in Hl; lia]. apply sqrt_le_1; cbn; lra.
  - exists 0%nat. split; [lia|]. cbn. lra.
  - exists 0%nat. split; [cbn; lia|]. cbn [two_svd sS sVt]. split; [split; [exact S0|apply sqrt_lt_1; lra]|].
    unfold mulv. cbn [bsum two_svd sVt]. assert (0 < / sqrt 2) by (now apply Rinv_0_lt_compat). cbn [INR]. lra.
  - intros i Hi. unfold outside, velem. cbn [v_data v_inc v_len] in *. lia.
  - intros i Hi. unfold outside, velem. cbn [v_data v_inc v_len] in *. lia.
Qed.
(** The arm of SgExamples has a limit on one of three joints. *)
Example C82_center_nonvacuous : limits_seen (declared h_arm) arm arm_path [Some (-1, 1); None; None] /\ ranges [Some (-1, 1); None; None].
Proof.
  split.
  - unfold limits_seen. assert (D : map d_cfg (joint_decls (declared h_arm) arm_path) = ["q1"; "q2"; "q3"]%string) by reflexivity.
    destruct (joint_decls (declared h_arm) arm_path) as [|d1 [|d2 [|d3 [|d4 l]]]]; try discriminate D. injection D as D1 D2 D3.
    repeat constructor; rewrite ?D1, ?D2, ?D3; eexists; (split; [vm_compute; reflexivity|]); (split; [discriminate|]); vm_compute; reflexivity.
  - intros a b [H|[H|[H|[]]]]; try discriminate H. injection H as <- <-. lra.
Qed.
