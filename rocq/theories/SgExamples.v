(** Concrete scene graphs: hypotheses are met, and the negative results. *)
From Coq Require Import ZArith String List Bool Reals Lra Lia.
From Verif Require Import TfModel TfSpec TfProofs SgModel SgSpec SgKinSpec SgQueryProofs SgClaims2 ClModel ClSpec.
Import ListNotations.
Open Scope Z_scope.

Definition q1 : Q4 := mkQ 0 0 0 1.
Definition qz : Q4 := mkQ 0 0 1 0.
Definition v0 : V3 := mkV 0 0 0.
Definition ux : V3 := mkV 1 0 0.
Definition uz : V3 := mkV 0 0 1.
Definition fixed (p n : string) (q : Q4) (v : V3) : op := OAdd Fixed p n (Some q) (Some v) None 0 v0.
Definition rev (p n c : string) (q : Q4) (v : V3) : op := OAdd Revolute p n (Some q) (Some v) (Some c) 0 uz.
Definition pris (p n c : string) (q : Q4) (v : V3) : op := OAdd Prismatic p n (Some q) (Some v) (Some c) 0 ux.

(** An arm: declared out of order, turned base, two revolute joints and a slider. *)
Definition h_arm : list op :=
  [ rev "slide" "wrist" "q3" q1 (mkV 1 0 0); fixed "" "base" qz (mkV 0 0 2); pris "elbow" "slide" "q2" q1 v0;
    rev "base" "elbow" "q1" q1 (mkV 1 2 3); fixed "wrist" "tool" q1 (mkV 0 0 1);
    OLimit LPos "q1" (-1) 1; OGeom "tool" 7; OAllow "wrist" "slide" true; OInit ]%string.
Definition get (h : list op) : sg := match run sg_create h with Ok s => s | _ => sg_create end.

Ltac declt H := cbv [declared fold_left declare upd rev fixed pris h_arm] in H;
  repeat match type of H with
  | (if String.eqb ?n ?k then _ else _) = _ => destruct (String.eqb_spec n k); [subst n; try discriminate H; apply (f_equal (fun o => match o with Some x => x | None => mkDecl Fixed "" "" 0%R v0 q1 v0 end)) in H; cbv beta iota in H; subst|]
  | None = Some _ => discriminate H
  end.
Definition is_ok {A} (r : res A) : bool := match r with Ok _ => true | _ => false end.
Lemma ready_by h : is_ok (run sg_create h) = true -> s_dirty (get h) = false -> ready h (get h).
Proof. unfold ready, get. destruct (run sg_create h); try discriminate. intros _ D. auto. Qed.
Ltac ready := apply ready_by; vm_compute; reflexivity.

Lemma arm_ready : ready h_arm (get h_arm).
Proof. ready. Qed.
Lemma unit_q1 : unitq q1. Proof. unfold unitq, norm2, q1. cbn. ring. Qed.
Lemma unit_qz : unitq qz. Proof. unfold unitq, norm2, qz. cbn. ring. Qed.
Lemma unit_uz : unit3 uz. Proof. unfold unit3, dot, uz. cbn. ring. Qed.
Lemma arm_forest : forest (declared h_arm).
Proof.
  split; [reflexivity|]. 
  assert (B : rooted (declared h_arm) "base") by (eapply rooted_top; reflexivity).
  assert (E : rooted (declared h_arm) "elbow") by (eapply rooted_child; [reflexivity|discriminate|exact B]).
  assert (S : rooted (declared h_arm) "slide") by (eapply rooted_child; [reflexivity|discriminate|exact E]).
  assert (W : rooted (declared h_arm) "wrist") by (eapply rooted_child; [reflexivity|discriminate|exact S]).
  intros n d G. declt G; auto. eapply rooted_child; [reflexivity|discriminate|exact W].
Qed.
Lemma arm_proper : proper (declared h_arm).
Proof.
  intros n d G. declt G; (split; [first [exact unit_q1|exact unit_qz]|]); try discriminate; intros; exact unit_uz.
Qed.

(** Evaluating concrete calls. *)
Ltac calc := cbv -[IZR Rplus Rmult Ropp Rminus Rdiv Rinv]; repeat f_equal; try ring.
Ltac no_rep := let p := fresh in let n := fresh in let E := fresh in let H := fresh in
  intros p n E H; cbn [In] in H; repeat (destruct H as [H|H]; [discriminate H|]); exact H.
Definition I3 : M33 := quat2rotmat q1.
Definition named_by h : forall d, declared h ""%string = d -> d = None -> named (declared h).
Proof. unfold named. congruence. Qed.

(** C44 *)
Definition h_anon : list op := [fixed "" "" q1 v0; OInit]%string.
Lemma c44_unnamed_refuted : exists h s i, ready h s /\ 0 <= i < frame_count s /\ frame_type s i = UB.
Proof.
  exists h_anon, (get h_anon), 0. split; [ready|]. split; [vm_compute; split; [discriminate|reflexivity]|]. vm_compute. reflexivity.
Qed.

(** C45 *)
Definition h_loop : list op := [fixed "b" "a" q1 v0; fixed "a" "b" q1 v0; fixed "" "c" q1 v0]%string.
Lemma loop_run : run sg_create h_loop = Ok (get h_loop).
Proof. assert (H : is_ok (run sg_create h_loop) = true) by (vm_compute; reflexivity). unfold get. destruct (run sg_create h_loop); auto; discriminate. Qed.
Lemma loop_named : named (declared h_loop). Proof. reflexivity. Qed.
Lemma loop_no_orphan : ~ orphan (declared h_loop).
Proof. intros (n & d & G & Ne & H). unfold h_loop in *. declt G; cbn [d_parent] in *; try discriminate H; congruence. Qed.
Lemma loop_cyclic : cyclic (declared h_loop).
Proof. exists "a"%string. eapply above_step; [reflexivity|discriminate|]. eapply above_parent; [reflexivity|reflexivity|discriminate]. Qed.
Lemma loop_not_self : ~ self_parent (declared h_loop).
Proof. intros (n & d & Nn & G & H). unfold h_loop in *. declt G; cbn [d_parent] in *; try discriminate H; congruence. Qed.
Definition h_self : list op := [fixed "a" "a" q1 v0]%string.

(** C46 *)
Definition h_fix : list op := [fixed "" "a" q1 v0; OInit]%string.
Lemma c46_name_refuted : exists h s i, ready h s /\ config_count s = Ok i /\ config_name s (Z.of_nat i) = UB.
Proof. exists h_fix, (get h_fix), O. split; [ready|]. split; vm_compute; reflexivity. Qed.
Lemma c46_count_refuted : exists h s, ready h s /\ config_count s = UB.
Proof. exists [OInit], (get [OInit]). split; [ready|]. vm_compute. reflexivity. Qed.

(** C47 *)
Definition h_two : list op := [pris "" "a" "qa" q1 v0; pris "a" "b" "qb" q1 v0; OInit]%string.
Lemma two_forest : forest (declared h_two).
Proof.
  split; [reflexivity|].
  assert (A : rooted (declared h_two) "a") by (eapply rooted_top; reflexivity).
  intros n d G. unfold h_two in G. declt G; auto. eapply rooted_child; [reflexivity|discriminate|exact A].
Qed.
Lemma two_proper : proper (declared h_two).
Proof. intros n d G. unfold h_two in G. declt G; (split; [exact unit_q1|discriminate]). Qed.
Definition v_two : dvec := mkDV 2 [0; 5; 1]%R 2.
Lemma loc_end g cfg n p x : n = ""%string -> p = x -> located g cfg n p x.
Proof. intros -> ->. constructor. Qed.
Lemma v3_x a b : vx a <> vx b -> a <> b. Proof. congruence. Qed.
Lemma c47_strided_refuted : exists h s v abs0 abs n i E p x,
  ready h s /\ forest (declared h) /\ proper (declared h) /\ config_count s = Ok (dv_len v) /\ fits v /\
  Z.of_nat (length abs0) = frame_count s /\ fk_all s v abs0 = Ok abs /\
  frame_no s n i /\ nth_error abs i = Some E /\
  located (declared h) (config_view s v) n p x /\ x <> place (TfModel.eq E) (ev E) p.
Proof.
  exists h_two, (get h_two), v_two, [ident_tf; ident_tf], [mkE q1 v0; mkE q1 (mkV 5 0 0)], "b"%string, 1%nat,
    (mkE q1 (mkV 5 0 0)), v0, (mkV 1 0 0).
  split; [ready|]. split; [exact two_forest|]. split; [exact two_proper|].
  split; [vm_compute; reflexivity|]. split.
  { intros [|[|i]] H; cbn in H |- *; try discriminate; lia. }
  split; [reflexivity|]. split; [calc|]. split; [vm_compute; reflexivity|]. split; [reflexivity|]. split.
  - eapply loc_frame; [discriminate|reflexivity|]. eapply loc_frame; [discriminate|reflexivity|].
    apply loc_end; [reflexivity|].
    cbv -[IZR Rplus Rmult Ropp Rminus Rdiv Rinv]. f_equal; ring.
  - apply v3_x. cbv -[IZR Rplus Rmult Ropp Rminus Rdiv Rinv not]. lra.
Qed.

(** C49 *)
Definition h_tilt : list op := [pris "" "a" "qa" qz v0; OInit]%string.
Lemma tilt_forest : forest (declared h_tilt).
Proof.
  split; [reflexivity|]. intros n d G. unfold h_tilt in G. declt G. eapply rooted_top; reflexivity.
Qed.
Lemma tilt_proper : proper (declared h_tilt).
Proof. intros n d G. unfold h_tilt in G. declt G. split; [exact unit_qz|discriminate]. Qed.
Definition rot_half : QV := mkE qz v0.
Lemma c49_prismatic_matrix_refuted : exists h s q E T rel mrel,
  ready h s /\ forest (declared h) /\ proper (declared h) /\ no_reparent h /\ config_count s = Ok (length q) /\
  sg_tf s q 1 = Ok (rel, [E]) /\ sg_tfmat s q 1 = Ok (mrel, [T]) /\
  mat_place T v0 <> place (TfModel.eq E) (ev E) v0.
Proof.
  exists h_tilt, (get h_tilt), [1%R], (mkE qz (mkV (-1) 0 0)), (mkT (quat2rotmat qz) (mkV 1 0 0)),
    [mkE qz (mkV (-1) 0 0)], [mkT (quat2rotmat qz) (mkV 1 0 0)].
  split; [ready|]. split; [exact tilt_forest|]. split; [exact tilt_proper|].
  split; [no_rep|]. split; [vm_compute; reflexivity|].
  split; [calc|]. split; [calc|].
  apply v3_x. cbv -[IZR Rplus Rmult Ropp Rminus Rdiv Rinv not]. lra.
Qed.
Lemma c49_prismatic_duqu_refuted : exists h s q,
  ready h s /\ forest (declared h) /\ proper (declared h) /\ no_reparent h /\ config_count s = Ok (length q) /\
  forall old, sg_duqu s q 1 old = Ok ([old O], [old O]).
Proof.
  exists h_tilt, (get h_tilt), [1%R].
  split; [ready|]. split; [exact tilt_forest|]. split; [exact tilt_proper|].
  split; [no_rep|]. split; [vm_compute; reflexivity|].
  intros old. cbv -[IZR Rplus Rmult Ropp Rminus Rdiv Rinv]. reflexivity.
Qed.
Definition h_moved : list op := [fixed "" "a" q1 v0; OReparent "" "a" rot_half; OInit]%string.
Lemma c49_reparent_refuted : exists h s E T D rel mrel drel,
  ready h s /\ forest (declared h) /\ proper (declared h) /\
  sg_tf s [] 1 = Ok (rel, [E]) /\ sg_tfmat s [] 1 = Ok (mrel, [T]) /\ (forall old, sg_duqu s [] 1 old = Ok (drel, [D])) /\
  place (TfModel.eq E) (ev E) (mkV 1 0 0) = mkV (-1) 0 0 /\
  mat_place T (mkV 1 0 0) = mkV 1 0 0 /\ dq_place D (mkV 1 0 0) = mkV 1 0 0.
Proof.
  exists h_moved, (get h_moved), rot_half, (mkT (quat2rotmat q1) v0), (qutr2duqu (mkE q1 v0)),
    [rot_half], [mkT (quat2rotmat q1) v0], [qutr2duqu (mkE q1 v0)].
  split; [ready|]. split.
  { split; [reflexivity|]. intros n d G. cbv [declared fold_left declare upd fixed h_moved] in G. cbn in G. declt G. eapply rooted_top; reflexivity. }
  split. { intros n d G. cbv [declared fold_left declare upd fixed h_moved] in G. cbn in G. declt G. split; [exact unit_qz|discriminate]. }
  split; [calc|]. split; [calc|]. split; [intros old; calc|].
  split; [calc|]. split; calc; field.
Qed.
Lemma c49_overrun_refuted : forall f out, length out = 12%nat -> fixed_tfmat_rel_mem f out = UB.
Proof.
  intros f out L. unfold fixed_tfmat_rel_mem, store_doubles.
  assert (length (m33_list (f_R f)) = 9%nat) as -> by reflexivity. rewrite L. cbn [Nat.leb Nat.add bind].
  assert (length (fixed_tfmat_src f) = 9%nat) as -> by reflexivity.
  rewrite !app_length, skipn_length, firstn_length, L. reflexivity.
Qed.

(** C51, C52 *)
Lemma c51_refuted : exists h s rz tz ls, ready h s /\ forest (declared h) /\ id_of s "base" rz /\ id_of s "tool" tz /\
  path (declared h) "base" "tool" ls /\ ls <> [] /\ multiple_chain_create s rz [tz] = Ok (mkSS [] [] None).
Proof.
  exists h_arm, (get h_arm), 0, 4, ["elbow"; "slide"; "wrist"; "tool"]%string.
  split; [exact arm_ready|]. split; [exact arm_forest|].
  split; [split; [vm_compute; reflexivity|discriminate]|]. split; [split; [vm_compute; reflexivity|discriminate]|]. split.
  - change ["elbow"; "slide"; "wrist"; "tool"]%string with (((([] ++ ["elbow"%string]) ++ ["slide"%string]) ++ ["wrist"%string]) ++ ["tool"%string])%list.
    do 4 (eapply path_step; [discriminate|discriminate|reflexivity|]; cbn [d_parent]). constructor.
  - split; [discriminate|]. vm_compute. reflexivity.
Qed.
Lemma c52_same_refuted : forall s z junk abs, frame_count s <> 0 ->
  exists ss, chain_create s z z junk = Ok ss /\ chain_jacobian s abs ss = UB.
Proof.
  intros s z junk abs _. exists (mkSS [] [] (Some [z])). split; [|reflexivity].
  unfold chain_create, chain_frame_count. cbn [chain_count_loop]. rewrite Z.eqb_refl. cbn [negb andb bind seq map].
  unfold chain_frames. cbn [length chain_fill_loop]. rewrite Z.eqb_refl. reflexivity.
Qed.

(** C54 *)
Definition h_late : list op := [pris "" "a" "qa" q1 v0; OInit; OLimit LPos "qa" (-1) 1]%string.
Lemma c54_late_refuted : exists h s c i, ready h s /\ config_id s c = Ok i /\ i <> CONFIG_NONE /\
  limit_of h LPos c = Some (-1, 1)%R /\ sg_get_limit s LPos i = Ok None.
Proof.
  exists h_late, (get h_late), "qa"%string, 0. split; [ready|]. split; [vm_compute; reflexivity|].
  split; [discriminate|]. split; [reflexivity|]. vm_compute. reflexivity.
Qed.

(** C55 *)
Definition h_heavy : list op := [fixed "" "a" q1 v0; OInit; OInertial "a" 1 I3]%string.
Lemma c55_inertial_refuted : exists h s d, ready h s /\ forest (declared h) /\ kept h /\ sg_copy s = Ok d /\
  frame_inertial s 0 = Ok (Some (1%R, I3)) /\ frame_inertial d 0 = Ok None.
Proof.
  exists h_heavy, (get h_heavy), (match sg_copy (get h_heavy) with Ok d => d | _ => sg_create end).
  split; [ready|]. split.
  { split; [reflexivity|]. intros n d G. unfold h_heavy in G. declt G. eapply rooted_top; reflexivity. }
  split.
  { intros h1 o h2 E n m A _. unfold h_heavy in E. exfalso.
    repeat (destruct h1 as [|o1 h1]; [discriminate A|cbn in E; injection E as <- E]).
    all: try (destruct h1; discriminate E). }
  split.
  { assert (H : is_ok (sg_copy (get h_heavy)) = true) by (vm_compute; reflexivity). destruct (sg_copy (get h_heavy)); auto; discriminate. }
  split; [cbv -[IZR Rplus Rmult Ropp Rminus Rdiv Rinv I3]; reflexivity|].
  vm_compute. reflexivity.
Qed.
Definition h_gone : list op := [fixed "" "a" q1 v0; fixed "" "b" q1 v0; OAllow "a" "b" true; ORm "a"; OInit]%string.
Lemma c55_dangling_refuted : exists h s, ready h s /\ forest (declared h) /\ (exists n d, declared h n = Some d) /\ sg_copy s = UB.
Proof.
  exists h_gone, (get h_gone). split; [ready|]. split.
  { split; [reflexivity|]. intros n d G. unfold h_gone in G. declt G. eapply rooted_top; reflexivity. }
  split; [exists "b"%string; eexists; reflexivity|]. vm_compute. reflexivity.
Qed.
Definition h_emptied : list op := [fixed "" "a" q1 v0; ORm "a"; OInit]%string.
Lemma c55_empty_refuted : exists h s d, ready h s /\ sg_copy s = Ok d /\ config_count s = Ok O /\ config_count d = UB.
Proof.
  exists h_emptied, (get h_emptied), sg_create. split; [ready|]. split; [vm_compute; reflexivity|]. split; vm_compute; reflexivity.
Qed.

(** C63 *)
Definition h_long : list op := [OAdd Revolute "" "a" (Some q1) (Some v0) (Some "qa"%string) 0 (mkV 2 0 0); OInit]%string.
Lemma c63_nonunit_refuted : exists h s x E p, ready h s /\ forest (declared h) /\
  (forall n d, declared h n = Some d -> unitq (d_q d)) /\
  sg_tf s [x] 1 = Ok ([E], [E]) /\
  dot (place (TfModel.eq E) (ev E) p) (place (TfModel.eq E) (ev E) p) <> dot p p.
Proof.
  exists h_long, (get h_long), PI, (mkE (mkQ 2 0 0 0) v0), (mkV 1 0 0). split; [ready|]. split.
  { split; [reflexivity|]. intros n d G. unfold h_long in G. declt G. eapply rooted_top; reflexivity. }
  split. { intros n d G. unfold h_long in G. declt G. exact unit_q1. }
  split.
  - assert (Hs : sin ((PI + 0) / 2) = 1%R) by (replace ((PI + 0) / 2)%R with (PI / 2)%R by field; apply sin_PI2).
    assert (Hc : cos ((PI + 0) / 2) = 0%R) by (replace ((PI + 0) / 2)%R with (PI / 2)%R by field; apply cos_PI2).
    cbv -[IZR Rplus Rmult Ropp Rminus Rdiv Rinv sin cos PI]. rewrite Hs, Hc. repeat f_equal; ring.
  - cbv -[IZR Rplus Rmult Ropp Rminus Rdiv Rinv not]. lra.
Qed.

(** C64 *)
Definition k_stale : list cop :=
  [CSg (fixed "" "b" q1 v0); CSg (fixed "" "c" q1 v0); CSg (OAllow "b" "c" true); CSg OInit; CInit;
   CSg (fixed "" "a" q1 v0); CSg OInit; CInit]%string.
Definition kget (h : list cop) : clsg := match crun clsg_create h with Ok k => k | _ => clsg_create end.
Lemma kget_by h : is_ok (crun clsg_create h) = true -> crun clsg_create h = Ok (kget h).
Proof. unfold kget. destruct (crun clsg_create h); auto; discriminate. Qed.
Lemma c64_stale_refuted : exists h k c ni nj mi mj i j i' j', crun clsg_create h = Ok k /\ s_dirty (k_sg k) = false /\
  kept (sg_calls h) /\ cl_init k = Ok k /\ cl_allowed k = Ok c /\
  frame_no (k_sg k) ni i /\ frame_no (k_sg k) nj j /\ allowed_of (sg_calls h) ni nj = true /\ cl_get c (Z.of_nat i) (Z.of_nat j) = Ok false /\
  frame_no (k_sg k) mi i' /\ frame_no (k_sg k) mj j' /\ allowed_of (sg_calls h) mi mj = false /\ cl_get c (Z.of_nat i') (Z.of_nat j') = Ok true.
Proof.
  exists k_stale, (kget k_stale), (mkC 3 [false;false;false;true;false;false;false;false;false]),
    "b"%string, "c"%string, "a"%string, "b"%string, 1%nat, 2%nat, 0%nat, 1%nat.
  split; [apply kget_by; vm_compute; reflexivity|]. split; [vm_compute; reflexivity|]. split.
  { intros h1 o h2 E n m A D. unfold k_stale in E. cbn [sg_calls flat_map app] in E.
    destruct h1 as [|o1 h1]; [discriminate A|]. injection E as <- E.
    destruct h1 as [|o1 h1]; [discriminate A|]. injection E as <- E.
    destruct h1 as [|o1 h1]; [discriminate A|]. injection E as <- E.
    destruct h1 as [|o1 h1]; [injection E as <- E; exact D|]. injection E as <- E.
    destruct h1 as [|o1 h1]; [injection E as <- E|].
    { cbn in D. subst n. cbv [allowed_of fold_left allow_step pair_eq fixed] in A. change (String.eqb "b" "a") with false in A. change (String.eqb "c" "a") with false in A. rewrite andb_false_r in A. discriminate A. }
    injection E as <- E. destruct h1 as [|o1 h1]; [injection E as <- E; exact D|]. injection E as <- E. destruct h1; discriminate E. }
  split. { vm_compute. reflexivity. }
  repeat (split; [vm_compute; reflexivity|]). vm_compute. reflexivity.
Qed.
Lemma c64_dangling_refuted : exists h, named (declared (sg_calls h)) /\ is_ok (run sg_create (sg_calls h)) = true /\ crun clsg_create (h ++ [CInit]) = UB.
Proof.
  exists [CSg (fixed "" "a" q1 v0); CSg (fixed "" "b" q1 v0); CSg (OAllow "a" "b" true); CSg (ORm "a"); CSg OInit]%string.
  split; [reflexivity|]. split; vm_compute; reflexivity.
Qed.
Lemma c64_uninitialised_refuted : exists h s, ready h s /\ forest (declared h) /\ crun clsg_create (map CSg h ++ [CInit]) = UB.
Proof.
  exists h_fix, (get h_fix). split; [ready|]. split.
  { split; [reflexivity|]. intros n d G. unfold h_fix in G. declt G. eapply rooted_top; reflexivity. }
  vm_compute. reflexivity.
Qed.

(** C65: the bound of aa_rx_fk_get_abs_qutr *)
Lemma c65_bound h s abs : ready h s -> Z.of_nat (length abs) = frame_count s ->
  fk_get_abs s abs (frame_count s) = UB /\
  forall i, 0 <= i < frame_count s -> exists E, fk_get_abs s abs i = Ok E /\ nth_error abs (Z.to_nat i) = Some E.
Proof. intros Rd L. destruct (ready_inv _ _ Rd) as [I [l X]]. exact (c65_get_abs _ _ _ _ _ I X L). Qed.

(** A motion of the arm that meets the hypotheses on the Jacobian. *)
Definition arm : sg := get h_arm.
Definition arm_q (u : R) : list R := [u; u; u].
Definition arm_cfg (u : R) : string -> R := config_of arm (arm_q u).
Definition arm_path : list string := ["elbow"; "slide"; "wrist"; "tool"]%string.
Definition arm_abs (u : R) : list QV := match sg_tf arm (arm_q u) 5 with Ok (_, a) => a | _ => [] end.
Definition arm_pos (i : nat) (u : R) (p : V3) : V3 :=
  match nth_error (arm_abs u) i with Some E => place (TfModel.eq E) (ev E) p | None => p end.
Lemma arm_count u : config_count arm = Ok (length (arm_q u)).
Proof. vm_compute. reflexivity. Qed.
Lemma arm_is_path : path (declared h_arm) "base" "tool" arm_path.
Proof.
  change arm_path with (((([] ++ ["elbow"%string]) ++ ["slide"%string]) ++ ["wrist"%string]) ++ ["tool"%string])%list.
  do 4 (eapply path_step; [discriminate|discriminate|reflexivity|]; cbn [d_parent]). constructor.
Qed.
Lemma arm_ids : id_of arm "base" 0 /\ id_of arm "elbow" 1 /\ id_of arm "slide" 2 /\ id_of arm "wrist" 3 /\ id_of arm "tool" 4.
Proof. repeat split; try discriminate; vm_compute; reflexivity. Qed.
Lemma arm_abs_ok u : length (arm_abs u) = 5%nat /\ forall n i, frame_no arm n i -> (i < 5)%nat ->
  exists E, nth_error (arm_abs u) i = Some E /\ unitq (TfModel.eq E) /\ forall p, located (declared h_arm) (arm_cfg u) n p (place (TfModel.eq E) (ev E) p).
Proof.
  destruct (c47_tf h_arm arm (arm_q u) 5 arm_ready arm_forest arm_proper (arm_count u)) as (rel & abs & E & _ & L & _ & H).
  unfold arm_abs. rewrite E. replace (frame_count arm) with 5 in L by (vm_compute; reflexivity). change (Nat.min 5 (Z.to_nat 5)) with 5%nat in L.
  split; auto. intros n i Fn Hi. destruct (nth_error abs i) as [e|] eqn:N; [|apply nth_error_None in N; lia].
  exists e. destruct (H n i e Fn N). auto.
Qed.
Lemma arm_posed u n i : frame_no arm n i -> (i < 5)%nat -> posed_at (declared h_arm) arm (arm_cfg u) (arm_abs u) n.
Proof.
  intros Fn Hi. destruct (arm_abs_ok u) as [_ H]. destruct (H n i Fn Hi) as (E & N & U & P).
  right. exists i, E. split; [split; [exact Fn|unfold FRAME_NONE; lia]|auto].
Qed.
Lemma arm_located u n i p : frame_no arm n i -> (i < 5)%nat -> located (declared h_arm) (arm_cfg u) n p (arm_pos i u p).
Proof.
  intros Fn Hi. destruct (arm_abs_ok u) as [_ H]. destruct (H n i Fn Hi) as (E & N & U & P). unfold arm_pos. rewrite N. auto.
Qed.
Lemma arm_base u p : located (declared h_arm) (arm_cfg u) "base" p (place qz (mkV 0 0 2) p).
Proof. eapply loc_frame; [discriminate|reflexivity|]. apply loc_end; reflexivity. Qed.
Lemma arm_moves d t : In d (joint_decls (declared h_arm) arm_path) -> derivable_pt_lim (fun u => arm_cfg u (d_cfg d)) t 1%R.
Proof.
  intros H. 
  assert (E : forall u, arm_cfg u (d_cfg d) = u).
  { intros u. cbn in H. repeat (destruct H as [<-|H]; [vm_compute; reflexivity|]). destruct H. }
  intros eps He. destruct (derivable_pt_lim_id t eps He) as [del Hd]. exists del. intros x Hx Hl. rewrite !E. exact (Hd x Hx Hl).
Qed.
Lemma arm_kept : kept h_arm.
Proof.
  intros h1 o h2 E n m A D. unfold h_arm in E.
  do 8 (destruct h1 as [|o1 h1]; [try discriminate A; injection E as <- E; exact D|]; injection E as <- E).
  destruct h1 as [|o1 h1]; [injection E as <- E; exact D|]. injection E as <- E. destruct h1; discriminate E.
Qed.
Lemma c56_fill_refuted : exists c d i j, made 3 c /\ made 2 d /\ valid 2 i /\ valid 2 j /\
  cl_get d i j = Ok true /\ cl_get (cl_fill c d) i j = Ok false.
Proof.
  exists (cl_create 3), (mkC 2 [false; false; true; false]), 1, 0. split; [constructor|]. split.
  { apply made_set with (c := cl_create 2) (i := 0) (j := 1) (x := true); [constructor|reflexivity]. }
  unfold valid. repeat split; cbn; try discriminate; reflexivity.
Qed.
