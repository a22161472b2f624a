(** A gantry with seven joints: sliders along x, y and z, turns about x, y and z, and a slider along x. *)
From Coq Require Import ZArith String List Bool Reals Lra Lia.
From Verif Require Import TfModel TfSpec SgModel SgSpec SgKinSpec SgClaims2 SgExamples IkSpec IkObj
  MatModel MatSpec MatProofs LaModel LaSpec LaAlg LaProofs WkRateModel WkRateSpec WkRate2 WkRate3 LcModel LcSpec LcProofs LcProofs2.
Import ListNotations.
Open Scope R_scope.

Definition uy : V3 := mkV 0 1 0.
Definition jnt (t : ftype) (p n c : string) (a : V3) : op := OAdd t p n (Some q1) (Some v0) (Some c) 0 a.
Definition h_gan : list op :=
  [ jnt Prismatic "" "f1" "q1" ux; jnt Prismatic "f1" "f2" "q2" uy; jnt Prismatic "f2" "f3" "q3" uz;
    jnt Revolute "f3" "f4" "q4" ux; jnt Revolute "f4" "f5" "q5" uy; jnt Revolute "f5" "f6" "q6" uz; jnt Prismatic "f6" "f7" "q7" ux;
    OLimit LPos "q1" (-5) 5; OLimit LVel "q1" (-3) 3; OLimit LAcc "q1" (-10) 10; OLimit LVel "q7" (-(1/2)) (1/2); OInit ]%string.
Definition gan : sg := get h_gan.
Definition gan_abs : list QV := repeat (mkE q1 v0) 7.
Definition gan_cfg (c : string) : R := 0.
Definition gan_path (k : nat) : list string := firstn k ["f1"; "f2"; "f3"; "f4"; "f5"; "f6"; "f7"]%string.
Lemma gan_ready : ready h_gan gan. Proof. ready. Qed.
Lemma gan_forest : forest (declared h_gan).
Proof.
  split; [reflexivity|].
  assert (A1 : rooted (declared h_gan) "f1") by (eapply rooted_top; reflexivity).
  assert (A2 : rooted (declared h_gan) "f2") by (eapply rooted_child; [reflexivity|discriminate|exact A1]).
  assert (A3 : rooted (declared h_gan) "f3") by (eapply rooted_child; [reflexivity|discriminate|exact A2]).
  assert (A4 : rooted (declared h_gan) "f4") by (eapply rooted_child; [reflexivity|discriminate|exact A3]).
  assert (A5 : rooted (declared h_gan) "f5") by (eapply rooted_child; [reflexivity|discriminate|exact A4]).
  assert (A6 : rooted (declared h_gan) "f6") by (eapply rooted_child; [reflexivity|discriminate|exact A5]).
  intros n d G. unfold h_gan, jnt in G. declt G; auto. eapply rooted_child; [reflexivity|discriminate|exact A6].
Qed.
Lemma gan_proper : proper (declared h_gan).
Proof.
  intros n d G. unfold h_gan, jnt in G. declt G; (split; [exact unit_q1|try discriminate]); intros; unfold unit3, dot; cbn; ring.
Qed.
Lemma gan_chain k tip tz : In (k, tip, tz) [(2%nat, "f2"%string, 1%Z); (6%nat, "f6"%string, 5%Z); (7%nat, "f7"%string, 6%Z)] ->
  exists ss, chain_of h_gan gan "" tip tz (gan_path k) ss /\ ss_frames ss = map Z.of_nat (seq 0 k) /\ ss_configs ss = map Z.of_nat (seq 0 k).
Proof.
  assert (I0 : id_of gan "" FRAME_ROOT) by (split; [vm_compute; reflexivity|discriminate]).
  intros [H|[H|[H|[]]]]; injection H as <- <- <-; eexists (mkSS _ _ _); (split; [|split; reflexivity]).
  all: constructor; auto using gan_ready, gan_forest, gan_proper; [discriminate|split; [vm_compute; reflexivity|discriminate]| |].
  - left. change (gan_path 2) with (([] ++ ["f1"%string]) ++ ["f2"%string])%list.
    do 2 (eapply path_step; [discriminate|discriminate|reflexivity|]; cbn [d_parent]). constructor.
  - exists FRAME_ROOT, (fun _ => 0%Z), 7%nat. split; [exact I0|]. split; [vm_compute; reflexivity|]. vm_compute. reflexivity.
  - left. change (gan_path 6) with (((((([] ++ ["f1"%string]) ++ ["f2"%string]) ++ ["f3"%string]) ++ ["f4"%string]) ++ ["f5"%string]) ++ ["f6"%string])%list.
    do 6 (eapply path_step; [discriminate|discriminate|reflexivity|]; cbn [d_parent]). constructor.
  - exists FRAME_ROOT, (fun _ => 0%Z), 7%nat. split; [exact I0|]. split; [vm_compute; reflexivity|]. vm_compute. reflexivity.
  - left. change (gan_path 7) with ((((((([] ++ ["f1"%string]) ++ ["f2"%string]) ++ ["f3"%string]) ++ ["f4"%string]) ++ ["f5"%string]) ++ ["f6"%string]) ++ ["f7"%string])%list.
    do 7 (eapply path_step; [discriminate|discriminate|reflexivity|]; cbn [d_parent]). constructor.
  - exists FRAME_ROOT, (fun _ => 0%Z), 7%nat. split; [exact I0|]. split; [vm_compute; reflexivity|]. vm_compute. reflexivity.
Qed.
Lemma still d p : d_q d = q1 -> d_v d = v0 -> d_off d = 0 -> rel_motion d gan_cfg p = p.
Proof.
  intros Q V O. unfold rel_motion. rewrite Q, V, O. unfold gan_cfg. replace (0 + 0) with 0 by ring. destruct d as [t pa c off ax q v]. cbn [d_type d_axis].
  unfold place. destruct p as [a b c']. destruct ax as [x y z].
  destruct t; cbv -[IZR Rplus Rmult Ropp Rminus Rdiv Rinv cos sin]; rewrite ?cos_0, ?sin_0; f_equal; ring.
Qed.
Lemma gan_posed m : In m (""%string :: gan_path 7) -> posed_at (declared h_gan) gan gan_cfg gan_abs m.
Proof.
  assert (P : forall p, p = place q1 v0 p) by (intros [a b c]; cbv -[IZR Rplus Rmult Ropp Rminus Rdiv Rinv]; f_equal; ring).
  assert (L : forall n, In n (gan_path 7) -> forall p, located (declared h_gan) gan_cfg n p (place q1 v0 p)).
  { intros n H p. rewrite <- (P p). cbn [gan_path firstn In] in H.
    repeat destruct H as [<-|H]; [..|contradiction]; repeat (eapply loc_frame; [discriminate|reflexivity|]; cbn [d_parent]; rewrite still by reflexivity); apply loc_root. }
  intros [<-|H]; [now left|right]. pose proof (L m H) as Lm. cbn [gan_path firstn In] in H.
  destruct H as [<-|[<-|[<-|[<-|[<-|[<-|[<-|[]]]]]]]]; [exists 0%nat|exists 1%nat|exists 2%nat|exists 3%nat|exists 4%nat|exists 5%nat|exists 6%nat]; exists (mkE q1 v0);
    (split; [split; [vm_compute; reflexivity|discriminate]|]); (split; [reflexivity|]); (split; [exact unit_q1|exact Lm]).
Qed.
Definition gan_cols (k : nat) : list (V3 * V3) := firstn k [(v0, ux); (v0, uy); (v0, uz); (ux, v0); (uy, v0); (uz, v0); (v0, ux)].
Lemma gan_jac k ss : (k = 2 \/ k = 6 \/ k = 7)%nat -> ss_frames ss = map Z.of_nat (seq 0 k) -> ss_configs ss = map Z.of_nat (seq 0 k) ->
  chain_jacobian gan gan_abs ss = Ok (gan_cols k).
Proof.
  intros K Ef Ec. unfold chain_jacobian. rewrite Ef, Ec. destruct K as [->|[->| ->]]; calc.
Qed.
Lemma gan_limits k kd lims : (k = 6 \/ k = 7)%nat ->
  lims = firstn k (match kd with LPos => [Some (-5, 5); None; None; None; None; None; None] | LVel => [Some (-3, 3); None; None; None; None; None; Some (-(1/2), 1/2)]
                   | LAcc => [Some (-10, 10); None; None; None; None; None; None] | _ => [None; None; None; None; None; None; None] end) ->
  limits_of (declared h_gan) gan (gan_path k) kd lims.
Proof.
  intros K ->. unfold limits_of. assert (D : map d_cfg (joint_decls (declared h_gan) (gan_path k)) = firstn k ["q1"; "q2"; "q3"; "q4"; "q5"; "q6"; "q7"]%string) by (destruct K as [->| ->]; reflexivity).
  remember (joint_decls (declared h_gan) (gan_path k)) as ds eqn:E. clear E.
  destruct K as [->| ->]; cbn [firstn] in D |- *.
  - destruct ds as [|d1 [|d2 [|d3 [|d4 [|d5 [|d6 [|]]]]]]]; try discriminate D. injection D as D1 D2 D3 D4 D5 D6.
    destruct kd; repeat constructor; rewrite ?D1, ?D2, ?D3, ?D4, ?D5, ?D6; eexists; (split; [vm_compute; reflexivity|]); (split; [discriminate|]); vm_compute; reflexivity.
  - destruct ds as [|d1 [|d2 [|d3 [|d4 [|d5 [|d6 [|d7 [|]]]]]]]]; try discriminate D. injection D as D1 D2 D3 D4 D5 D6 D7.
    destruct kd; repeat constructor; rewrite ?D1, ?D2, ?D3, ?D4, ?D5, ?D6, ?D7; eexists; (split; [vm_compute; reflexivity|]); (split; [discriminate|]); vm_compute; reflexivity.
Qed.
Definition six_svd : svdres := {| sU := delta; sS := fun _ => 1; sVt := delta |}.
Lemma six_is_svd : is_svd 6 6 (colmat (gan_cols 6)) six_svd.
Proof.
  assert (D : forall k l, (k < 6)%nat -> (l < 6)%nat -> bsum 6 (fun i => delta i k * delta i l) = delta k l).
  { intros k l Hk Hl. rewrite (bsum_ext 6 _ (fun i => delta i k * delta l i)) by (intros; f_equal; apply delta_sym). now rewrite bsum_delta, delta_sym by exact Hl. }
  split; [|split; [|split; [|split]]]; cbn [six_svd sU sS sVt].
  - intros i j Hi Hj. cbn [Nat.min]. do 6 (destruct i as [|i]; [do 6 (destruct j as [|j]; [cbn; ring|]); lia|]). lia.
  - exact D.
  - intros k l Hk Hl. cbn [Nat.min] in *. rewrite (bsum_ext _ _ (fun i => delta i k * delta i l)) by (intros; f_equal; apply delta_sym). now apply D.
  - intros; lra.
  - intros; lra.
Qed.
Definition seven_svd : svdres :=
  {| sU := delta; sS := fun l => match l with 0%nat => sqrt 2 | _ => 1 end;
     sVt := fun l j => match l, j with 0%nat, 0%nat => / sqrt 2 | 0%nat, 6%nat => / sqrt 2 | 6%nat, 0%nat => / sqrt 2 | 6%nat, 6%nat => - / sqrt 2 | 0%nat, _ => 0 | 6%nat, _ => 0 | _, 6%nat => 0 | _, 0%nat => 0 | _, _ => delta l j end |}.
Lemma seven_is_svd : is_svd 6 7 (colmat (gan_cols 7)) seven_svd.
Proof.
  assert (S2 : sqrt 2 * sqrt 2 = 2) by (apply sqrt_sqrt; lra). assert (S0 : 0 < sqrt 2) by (apply sqrt_lt_R0; lra).
  assert (S1 : 1 <= sqrt 2) by nra.
  assert (I1 : sqrt 2 * / sqrt 2 = 1) by (apply Rinv_r; lra).
  assert (I2 : / sqrt 2 * / sqrt 2 = / 2) by (rewrite <- Rinv_mult, S2; reflexivity).
  split; [|split; [|split; [|split]]].
  - intros i j Hi Hj. cbn [Nat.min]. do 6 (destruct i as [|i]; [do 7 (destruct j as [|j]; [cbn; lra|]); lia|]). lia.
  - intros k l Hk Hl. cbn [seven_svd sU]. rewrite (bsum_ext 6 _ (fun i => delta i k * delta l i)) by (intros; f_equal; apply delta_sym). now rewrite bsum_delta, delta_sym by exact Hl.
  - intros k l Hk Hl. do 7 (destruct k as [|k]; [do 7 (destruct l as [|l]; [cbn; lra|]); lia|]). lia.
  - intros l Hl. cbn [seven_svd sS]. destruct l; lra.
  - intros k l Hk Hl. cbn [seven_svd sS]. destruct k, l; try lra. lia.
Qed.
Lemma seven_nearest b c y : y 0%nat + y 6%nat = b 0%nat -> (forall j, (1 <= j < 6)%nat -> y j = b j) -> y 0%nat - c 0%nat = y 6%nat - c 6%nat ->
  nearest_solution 7 (colmat (gan_cols 7)) b c y.
Proof.
  intros H0 Hj Hc.
  assert (M : forall z i, (i < 6)%nat -> mulv 7 (colmat (gan_cols 7)) z i = if Nat.eqb i 0 then z 0%nat + z 6%nat else z i).
  { intros z i Hi. do 6 (destruct i as [|i]; [cbn; ring|]). lia. }
  assert (L : ssq 6 (fun i => mulv 7 (colmat (gan_cols 7)) y i - b i) = 0).
  { unfold ssq. apply bsum_zero. intros k Hk. rewrite M by exact Hk. destruct k; cbn [Nat.eqb]; [rewrite H0|rewrite Hj by lia]; ring. }
  split.
  - intros z. rewrite L. apply ssq_nonneg.
  - intros z Lz. specialize (Lz y). rewrite L in Lz.
    assert (E : forall i, (i < 6)%nat -> mulv 7 (colmat (gan_cols 7)) z i - b i = 0).
    { apply (ssq_zero 6 (fun i => mulv 7 (colmat (gan_cols 7)) z i - b i)). apply Rle_antisym; [exact Lz|apply ssq_nonneg]. }
    assert (E0 : z 0%nat + z 6%nat = b 0%nat) by (specialize (E 0%nat ltac:(lia)); rewrite M in E by lia; cbn [Nat.eqb] in E; lra).
    assert (Ej : forall j, (1 <= j < 6)%nat -> z j = y j).
    { intros j Hj'. specialize (E j ltac:(lia)). rewrite M in E by lia. destruct j; [lia|]. cbn [Nat.eqb] in E. rewrite (Hj (S j)) by lia. lra. }
    assert (Sq : ssq 7 (fun i => z i - c i) = ssq 7 (fun i => y i - c i) + 2 * (z 0%nat - y 0%nat) * (z 0%nat - y 0%nat)).
    { unfold ssq, dotp. cbn [bsum]. rewrite (Ej 1%nat), (Ej 2%nat), (Ej 3%nat), (Ej 4%nat), (Ej 5%nat) by lia.
      replace (z 6%nat) with (y 6%nat - (z 0%nat - y 0%nat)) by lra. set (d := z 0%nat - y 0%nat). replace (z 0%nat) with (y 0%nat + d) by (unfold d; ring).
      replace (y 0%nat - c 0%nat) with (y 6%nat - c 6%nat) by lra. replace (y 0%nat + d - c 0%nat) with (y 6%nat - c 6%nat + d) by lra. ring. }
    pose proof (Rle_0_sqr (z 0%nat - y 0%nat)) as D2. unfold Rsqr in D2. split; [lra|]. intros Q i Hi. assert (Z : z 0%nat = y 0%nat) by (apply Rminus_diag_uniq; apply Rsqr_0_uniq; unfold Rsqr; lra).
    destruct i as [|i]; [exact Z|]. destruct (Nat.eq_dec (S i) 6) as [E6|]; [rewrite E6; lra|]. apply Ej. lia.
Qed.

(** Seven joints: the limit of the last is broken and the tip is off, although rates within the limits give
    the tip the velocity asked for. *)
Lemma c84_more_refuted : exists h s root tip tz ls ss q0 abs l pos vel acc o gesdd junk r solve dt dx_r q_a dq_a dq_r y dq,
  chain_of h s root tip tz ls ss /\ (forall m, In m (root :: ls) -> posed_at (declared h) s q0 abs m) /\
  length (ss_configs ss) = 7%nat /\ chain_jacobian s abs ss = Ok l /\
  limits_of (declared h) s ls LPos pos /\ limits_of (declared h) s ls LVel vel /\ limits_of (declared h) s ls LAcc acc /\
  decomposes gesdd 6 7 (colmat l) r /\ regular o 7 r /\ optimal solve /\ 0 < dt /\
  length dx_r = 6%nat /\ length q_a = 7%nat /\ length dq_a = 7%nat /\ length dq_r = 7%nat /\ length y = 7%nat /\
  nearest_solution 7 (colmat l) (fun i => nth i dx_r 0) (fun i => nth i dq_r 0) (fun i => nth i y 0) /\
  all_allowed dt pos vel acc q_a dq_a dq_a /\ all_allowed dt pos vel acc q_a dq_a y /\
  (forall M0, wk_dx2dq_lc3 gesdd junk M0 solve o s abs ss dt dx_r q_a dq_a dq_r 7 = Done (0%Z, Some dq)) /\
  ~ all_allowed dt pos vel acc q_a dq_a dq /\
  mulv 7 (colmat l) (fun i => nth i y 0) 0 = nth 0 dx_r 0 /\ mulv 7 (colmat l) (fun i => nth i dq_a 0) 0 = 0 /\
  nth 0 dx_r 0 = 2 /\ mulv 7 (colmat l) (fun i => nth i dq 0) 0 = 3.
Proof.
  destruct (gan_chain 7 "f7" 6) as (ss & C & Ef & Ec); [cbn; auto|].
  set (pos := [Some (-5, 5); None; None; None; None; None; None]). set (vel := [Some (-3, 3); None; None; None; None; None; Some (-(1/2), 1/2)]).
  set (acc := [Some (-10, 10); None; None; None; None; None; None]).
  set (y := [2; 0; 0; 0; 0; 0; 0]). set (dq := [2; 0; 0; 0; 0; 0; 1]). set (z7 := [0; 0; 0; 0; 0; 0; 0]).
  exists h_gan, gan, ""%string, "f7"%string, 6%Z, (gan_path 7), ss, gan_cfg, gan_abs, (gan_cols 7), pos, vel, acc, wk_opts_create, (fun _ _ _ => seven_svd), (fun _ => 0), seven_svd, corner, 1,
    [2; 0; 0; 0; 0; 0], z7, z7, [1; 0; 0; 0; 0; 0; -1], y, dq.
  assert (Po : forall m, In m (""%string :: gan_path 7) -> posed_at (declared h_gan) gan gan_cfg gan_abs m) by exact gan_posed.
  assert (N : length (ss_configs ss) = 7%nat) by (rewrite Ec; reflexivity).
  assert (J : chain_jacobian gan gan_abs ss = Ok (gan_cols 7)) by (apply gan_jac; auto).
  assert (Lp : limits_of (declared h_gan) gan (gan_path 7) LPos pos) by (apply gan_limits; auto).
  assert (Lv : limits_of (declared h_gan) gan (gan_path 7) LVel vel) by (apply gan_limits; auto).
  assert (Lc : limits_of (declared h_gan) gan (gan_path 7) LAcc acc) by (apply gan_limits; auto).
  assert (D : decomposes (fun _ _ _ => seven_svd) 6 7 (colmat (gan_cols 7)) seven_svd) by (split; [exact seven_is_svd|reflexivity]).
  assert (S2 : 1 <= sqrt 2) by (rewrite <- sqrt_1; apply sqrt_le_1; lra).
  assert (Rg : regular wk_opts_create 7 seven_svd).
  { left. cbn [wk_opts_create wo_s2min]. split; [lra|]. intros l _. right. cbn [seven_svd sS]. apply Rle_trans with 1; [|destruct l; lra].
    apply Rle_trans with (sqrt 1); [apply sqrt_le_1; lra|rewrite sqrt_1; lra]. }
  assert (Ny : nearest_solution 7 (colmat (gan_cols 7)) (fun i => nth i [2; 0; 0; 0; 0; 0] 0) (fun i => nth i [1; 0; 0; 0; 0; 0; -1] 0) (fun i => nth i y 0)).
  { apply seven_nearest; [cbn; lra| |cbn; lra]. intros j Hj. do 6 (destruct j as [|j]; [lia || reflexivity|]). lia. }
  assert (Ny0 : nearest_solution 7 (colmat (gan_cols 7)) (fun i => nth i [2; 0; 0; 0; 0; 0] 0) (fun i => nth i z7 0) (fun i => nth i [1; 0; 0; 0; 0; 0; 1] 0)).
  { apply seven_nearest; [cbn; lra| |cbn; lra]. intros j Hj. do 6 (destruct j as [|j]; [lia || reflexivity|]). lia. }
  assert (Alw : forall x, In x [z7; y] -> all_allowed 1 pos vel acc z7 z7 x).
  { intros x Hx i p w a q v t Ep Ew Ea Eq Ev Et. assert (X : x = z7 \/ x = y) by (cbn in Hx; intuition auto).
    assert (R : -1/2 <= t <= 2 /\ (i = 6%nat -> t <= 1/2)).
    { destruct X as [-> | ->]; do 7 (destruct i as [|i]; [injection Et as <-; split; [lra|intros H; try discriminate H; lra]|]); destruct i; discriminate Et. }
    do 7 (destruct i as [|i]; [injection Ep as <-; injection Ew as <-; injection Ea as <-; injection Eq as <-; injection Ev as <-;
      repeat split; intros; try discriminate; repeat match goal with H : Some _ = Some _ |- _ => injection H as <- <- end; try lra; destruct R as [R1 R2]; specialize (R2 eq_refl); lra|]).
    destruct i; discriminate Ep. }
  assert (Run : forall M0, wk_dx2dq_lc3 (fun _ _ _ => seven_svd) (fun _ => 0) M0 corner wk_opts_create gan gan_abs ss 1 [2; 0; 0; 0; 0; 0] z7 z7 [1; 0; 0; 0; 0; 0; -1] 7 = Done (0%Z, Some dq)).
  { intros M0. destruct (c84_mixed h_gan gan "" "f7" 6 (gan_path 7) ss gan_cfg gan_abs C Po) with (pos := pos) (vel := vel) (acc := acc) (l := gan_cols 7) (o := wk_opts_create)
      (gesdd := fun (_ _ : nat) (_ : nat -> nat -> R) => seven_svd) (junk := fun _ : nat => 0) (r := seven_svd) (M0 := M0) (solve := corner) (dt := 1) (dx_r := [2; 0; 0; 0; 0; 0])
      (q_a := z7) (dq_a := z7) (dq_r := [1; 0; 0; 0; 0; 0; -1]) (y := y) (y0 := fun i => nth i [1; 0; 0; 0; 0; 0; 1] 0) as [H1 H2]; try rewrite N; auto; try lia; try lra; try exact corner_optimal.
    { apply Alw. cbn. auto. }
    destruct H2 as [dq' E]; [now right|]. specialize (H1 dq' E). rewrite N in E, H1. rewrite E. do 3 f_equal.
    assert (L' : length dq' = 7%nat).
    { clear - E N. unfold wk_dx2dq_lc3 in E. rewrite N in E. destruct (Rle_dec 1 0); [discriminate E|]. unfold check in E. cbn [length Nat.eqb z7] in E.
      destruct (lc3_constraints _ _ _ _ _ _ _ _ _ _ _ _) as [p| |]; cbn [obind] in E; try discriminate E. destruct (corner p) as [c x]. destruct (Z.eqb 0 c); [|discriminate E].
      cbn [Nat.ltb Nat.leb] in E. injection E as _ <-. reflexivity. }
    apply list_eq; [exact L'|]. rewrite L'. intros i Hi. unfold vec_of. rewrite (H1 i Hi). do 7 (destruct i as [|i]; [reflexivity|]). lia. }
  do 5 (split; [assumption || exact C|]). do 2 (split; [assumption|]). split; [exact D|]. split; [exact Rg|]. split; [exact corner_optimal|]. split; [lra|].
  do 5 (split; [reflexivity|]). split; [exact Ny|]. split; [apply Alw; cbn; auto|]. split; [apply Alw; cbn; auto|]. split; [exact Run|]. split.
  - intros A. destruct (A 6%nat None (Some (-(1/2), 1/2)) None 0 0 1 eq_refl eq_refl eq_refl eq_refl eq_refl eq_refl) as [V _]. destruct (V _ _ eq_refl). lra.
  - repeat split; cbn; ring.
Qed.
