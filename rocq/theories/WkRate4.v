(** Resolved rates of a chain of a scene graph; rates towards the middle of the joint limits. *)
From Coq Require Import ZArith String List Bool Reals Lra Lia.
From Verif Require Import TfModel TfSpec SgModel SgSpec SgKinSpec IkSpec IkObj
  MatModel MatSpec MatProofs LaModel LaSpec LaAlg LaProofs La2Proofs La3Proofs La4Proofs WkRateModel WkRateSpec WkRate WkRate2 WkRate3.
Import ListNotations.
Open Scope R_scope.

Section Chain.
  Context (h : list op) (s : sg) (root tip : string) (tz : Z) (ls : list string) (ss : ssg) (q0 : string -> R) (abs : list QV).
  Hypothesis C : chain_of h s root tip tz ls ss.
  Hypothesis Po : forall m, In m (root :: ls) -> posed_at (declared h) s q0 abs m.
  Let n := length (ss_configs ss).
  Hypothesis Hn : (0 < n)%nat.

  Lemma c82_rates : exists l, chain_jacobian s abs ss = Ok l /\ velocity_matrix (declared h) root tip ls q0 (colmat l) /\
    forall o gesdd junk r dx dq w M, (0 < wo_s2min o \/ wo_kdls o <= 0 -> decomposes gesdd 6 n (colmat l) r) ->
    v_len dx = 6%nat -> v_len dq = n -> good_vec dq -> apart (in_vec dx) (in_vec dq) ->
    vec_off w (12 * n + svd_work 6 n) dx -> vec_off w (12 * n + svd_work 6 n) dq ->
    exists M', wk_dx2dq gesdd junk o s abs ss dx dq w M = Done M' /\
      rates_for o n (colmat l) r (vget dx M) (vget dq M') /\
      (forall a, outside w (12 * n + svd_work 6 n) a -> ~ in_vec dq a -> M' a = M a).
  Proof.
    destruct (jac_matrix h s root tip tz ls ss C q0 abs Po) as (l & K & HJ & _ & HL & _ & HV). exists l. split; [exact HJ|]. split; [exact HV|].
    intros o gesdd junk r dx dq w M HD Lx Lq Gq _ Ox Oq.
    destruct (dx2dq_core gesdd junk o s abs ss l r Hn HJ HL HD) as (P & HP & H1 & _).
    destruct (H1 dx dq w M Lx Lq Gq Ox Oq) as (M' & D & V & F). exists M'. split; [exact D|]. split; [|exact F].
    now apply (inverse_rates o n (colmat l) r P).
  Qed.

  (** with secondary rates, compared with the rates without *)
  Lemma c82_np : exists l, chain_jacobian s abs ss = Ok l /\ velocity_matrix (declared h) root tip ls q0 (colmat l) /\
    forall o gesdd junk r dx dqr dq w M, (0 < wo_s2min o \/ wo_kdls o <= 0 -> decomposes gesdd 6 n (colmat l) r) ->
    v_len dx = 6%nat -> v_len dqr = n -> v_len dq = n -> good_vec dq -> apart (in_vec dx) (in_vec dq) -> apart (in_vec dqr) (in_vec dq) ->
    let W := (12 * n + n * n + svd_work 6 n)%nat in
    vec_off w W dx -> vec_off w W dqr -> vec_off w W dq ->
    exists M' M0, wk_dx2dq_np gesdd junk o s abs ss dx dqr dq w M = Done M' /\
      wk_dx2dq gesdd junk o s abs ss dx dq w M = Done M0 /\
      (forall a, outside w W a -> ~ in_vec dq a -> M' a = M a) /\
      let J := colmat l in let b := vget dx M in let yp := vget dqr M in let y := vget dq M' in let y0 := vget dq M0 in
      (regular o n r -> nearest_solution n J b yp y /\ forall i, (i < 6)%nat -> mulv n J y i = mulv n J y0 i) /\
      ((forall i, (i < 6)%nat -> mulv n J yp i = 0) -> forall i, (i < n)%nat -> y i = y0 i + yp i) /\
      (wo_s2min o <= 0 -> 0 < wo_kdls o -> (exists i, (i < 6)%nat /\ mulv n J yp i <> 0) ->
        exists i, (i < 6)%nat /\ mulv n J y i <> mulv n J y0 i) /\
      (0 < wo_s2min o -> (exists k, (k < Nat.min 6 n)%nat /\ 0 < sS r k < sqrt (wo_s2min o) /\ mulv n (sVt r) yp k <> 0) ->
        exists i, (i < 6)%nat /\ mulv n J y i <> mulv n J y0 i).
  Proof.
    destruct (jac_matrix h s root tip tz ls ss C q0 abs Po) as (l & K & HJ & _ & HL & _ & HV). exists l. split; [exact HJ|]. split; [exact HV|].
    intros o gesdd junk r dx dqr dq w M HD Lx Lr Lq Gq Axq Arq W Ox Or Oq.
    destruct (dx2dq_core gesdd junk o s abs ss l r Hn HJ HL HD) as (P & HP & H1 & H2).
    destruct (H2 dx dqr dq w M Lx Lr Lq Gq Ox Or Oq) as (M' & D & V & F).
    { intros i Hi. apply Arq. exists i. split; [|reflexivity]. rewrite Lr. exact Hi. }
    assert (Sub : forall v, vec_off w W v -> vec_off w (12 * n + svd_work 6 n) v).
    { intros v Hv i Hi. specialize (Hv i Hi). unfold W, outside in *. lia. }
    destruct (H1 dx dq w M Lx Lq Gq (Sub _ Ox) (Sub _ Oq)) as (M0 & D0 & V0 & _).
    exists M', M0. split; [exact D|]. split; [exact D0|]. split; [exact F|]. intros J b yp y y0.
    assert (EJ : forall i, mulv n J y i = mulv n J (nullspace_solution 6 n J P b yp) i) by (intros i; apply bsum_ext; intros k Hk; f_equal; now apply V).
    assert (EJ0 : forall i, mulv n J y0 i = mulv n J (mulv 6 P b) i) by (intros i; apply bsum_ext; intros k Hk; f_equal; now apply V0).
    assert (ED : forall i, mulv n J y i - mulv n J y0 i = mulv n J yp i - mulv n J (mulv 6 P (mulv n J yp)) i).
    { intros i. rewrite EJ, EJ0. 
      change (nullspace_solution 6 n J P b yp) with (fun i => mulv 6 P b i + yp i - mulv 6 P (mulv n J yp) i).
      generalize (mulv 6 P b) (mulv 6 P (mulv n J yp)). intros f g. unfold mulv. rewrite <- !bsum_minus. apply bsum_ext. intros. ring. }
    split; [|split; [|split]].
    - intros R. pose proof (io_exact _ _ _ _ _ HP R) as MP. split.
      + eapply nearest_ext; [|apply (nearest_np n J P b yp MP)]. exact V.
      + intros i Hi. rewrite EJ, EJ0. apply np_image; [apply MP|exact Hi].
    - intros Z i Hi. assert (E1 : y i = mulv 6 P b i + yp i - mulv 6 P (mulv n J yp) i) by exact (V i Hi). assert (E0 : y0 i = mulv 6 P b i) by exact (V0 i Hi).
      assert (mulv 6 P (mulv n J yp) i = 0) by (apply bsum_zero; intros k Hk; rewrite Z by exact Hk; ring). lra.
    - intros S K0 X. destruct (io_leak_damped _ _ _ _ _ HP S K0 yp X) as (i & Hi & N). exists i. split; [exact Hi|]. fold J in N. rewrite <- ED in N. lra.
    - intros S (k & Hk & Hs & Hv). destruct (io_leak _ _ _ _ _ HP S yp k Hk Hs Hv) as (i & Hi & N). exists i. split; [exact Hi|]. fold J in N. rewrite <- ED in N. lra.
  Qed.
End Chain.

Lemma c82_no_joints gesdd junk o s abs ss dx dqr dq w M : ss_configs ss = [] ->
  wk_dx2dq gesdd junk o s abs ss dx dq w M = Fail /\ wk_dx2dq_np gesdd junk o s abs ss dx dqr dq w M = Fail.
Proof.
  intros E. unfold wk_dx2dq, wk_dx2dq_np, wk_get_js, jac_vel_fill. rewrite E. cbn [length]. unfold check.
  assert (B : dmat_view_block (mkDM 6 0 w 6) 0 0 3 (m_cols (mkDM 6 0 w 6)) = Fail) by reflexivity.
  split; repeat (destruct (Nat.eqb _ _); [|reflexivity]); reflexivity.
Qed.

(** ** Rates towards the middle *)
Lemma f2_length {A B} (P : A -> B -> Prop) l l' : Forall2 P l l' -> length l = length l'.
Proof. induction 1; cbn; auto. Qed.
Lemma dqcenter_loop_ok s g : forall ids lims, Forall2 (fun c l => sg_get_limit s LPos c = Ok l) ids lims ->
  forall xq iq xd id M, (0 < id)%nat -> (forall i j, (i < length ids)%nat -> (j < length ids)%nat -> (xq + i * iq)%nat <> (xd + j * id)%nat) ->
  exists M', dqcenter_loop s g ids xq iq xd id M = Done M' /\
    (forall i l, nth_error lims i = Some l -> M' (xd + i * id)%nat = center_rate g (M (xq + i * iq)%nat) l) /\
    (forall a, (forall i, (i < length ids)%nat -> a <> (xd + i * id)%nat) -> M' a = M a).
Proof.
  induction 1 as [|c l ids lims Hl H IH]; intros xq iq xd id M Hi Hd.
  - exists M. split; [reflexivity|]. split; [intros [|i] l' E; discriminate|auto].
  - cbn [dqcenter_loop]. rewrite Hl. cbn [lift obind].
    set (v := match l with None => 0 | Some (mi, ma) => _ end).
    assert (Ev : v = center_rate g (M xq) l) by (unfold v, center_rate; destruct l as [[a b]|]; [rewrite (Rplus_comm b a)|]; reflexivity).
    destruct (IH (xq + iq)%nat iq (xd + id)%nat id (upd M xd v) Hi) as (M' & D & V & F).
    { intros i j Hi' Hj'. specialize (Hd (S i) (S j)). cbn [length] in Hd. specialize (Hd ltac:(lia) ltac:(lia)). cbn in Hd. lia. }
    exists M'. split; [exact D|]. split.
    + intros [|i] l' E; cbn [nth_error] in E.
      * injection E as <-. rewrite Nat.add_0_r, F; [|intros; lia]. rewrite Nat.add_0_r. unfold upd. rewrite Nat.eqb_refl. exact Ev.
      * specialize (V i l' E). replace (xd + S i * id)%nat with (xd + id + i * id)%nat by lia. rewrite V.
        replace (xq + S i * iq)%nat with (xq + iq + i * iq)%nat by lia. f_equal. unfold upd.
        destruct (Nat.eqb_spec (xq + iq + i * iq) xd) as [X|]; [|reflexivity]. exfalso.
        assert (Li : (i < length ids)%nat) by (rewrite (f2_length _ _ _ H); apply nth_error_Some; congruence).
        specialize (Hd (S i) 0%nat). cbn [length] in Hd. specialize (Hd ltac:(lia) ltac:(lia)). cbn in Hd. lia.
    + intros a Ha. rewrite F.
      * unfold upd. destruct (Nat.eqb_spec a xd) as [->|]; [|reflexivity]. exfalso. apply (Ha 0%nat); cbn; lia.
      * intros i Hi' ->. apply (Ha (S i)); cbn; lia.
Qed.
Lemma center_toward g x a b : 0 < g -> a < b -> let y := center_rate g x (Some (a, b)) in
  (x < (a + b) / 2 -> 0 < y) /\ ((a + b) / 2 < x -> y < 0) /\ (a <= x <= b -> Rabs y <= g / 2).
Proof.
  intros Hg Hab. cbn. set (e := ((a + b) / 2 - x) / (b - a)).
  assert (E : e * (b - a) = (a + b) / 2 - x) by (unfold e; field; lra).
  repeat split; intros.
  - apply Rmult_lt_0_compat; [exact Hg|]. nra.
  - assert (e < 0) by nra. nra.
  - assert (- / 2 <= e <= / 2) by (split; nra). unfold Rabs. destruct (Rcase_abs (g * e)); nra.
Qed.
Lemma c82_center h s root tip tz ls ss lims : chain_of h s root tip tz ls ss -> limits_seen (declared h) s ls lims -> ranges lims ->
  forall o q dqr M, let n := length (ss_configs ss) in v_len q = n -> v_len dqr = n -> good_vec dqr -> apart (in_vec q) (in_vec dqr) ->
  exists M', wk_dqcenter o s ss q dqr M = Done M' /\
    vec_becomes dqr M M' (fun i => match nth_error lims i with Some l => center_rate (wo_np o) (vget q M i) l | None => 0 end).
Proof.
  intros C L Rg o q dqr M n Lq Ld Gd Ap. pose proof (chain_limits _ _ _ _ _ _ _ _ C L) as H.
  assert (Ln : length lims = n) by (symmetry; exact (f2_length _ _ _ H)).
  destruct (dqcenter_loop_ok s (wo_np o) _ _ H (v_data q) (v_inc q) (v_data dqr) (v_inc dqr) M) as (M' & D & V & F).
  { unfold good_vec in Gd. lia. }
  { intros i j Hi Hj E. apply (Ap (velem q i)).
    - exists i. split; [fold n in Hi; lia|reflexivity].
    - exists j. split; [fold n in Hj; lia|exact E]. }
  exists M'. unfold wk_dqcenter. fold n. rewrite Lq, Ld. unfold check. rewrite !Nat.eqb_refl. split; [exact D|]. split.
  - intros i Hi. destruct (nth_error lims i) as [l|] eqn:E; [|apply nth_error_None in E; lia]. exact (V i l E).
  - intros a Ha. apply F. intros i Hi ->. apply Ha. exists i. split; [fold n in Hi; lia|reflexivity].
Qed.
Lemma c82_sizes gesdd junk o s abs ss dx dqr dq q w M : let n := length (ss_configs ss) in
  (v_len dx <> 6%nat \/ v_len dq <> n -> wk_dx2dq gesdd junk o s abs ss dx dq w M = Fail) /\
  (v_len dx <> 6%nat \/ v_len dqr <> n \/ v_len dq <> n -> wk_dx2dq_np gesdd junk o s abs ss dx dqr dq w M = Fail) /\
  (v_len q <> n \/ v_len dqr <> n -> wk_dqcenter o s ss q dqr M = Fail).
Proof.
  intros n. unfold wk_dx2dq, wk_dx2dq_np, wk_dqcenter, check. fold n.
  destruct (Nat.eqb_spec (v_len dx) 6); destruct (Nat.eqb_spec (v_len dqr) n); destruct (Nat.eqb_spec (v_len dq) n); destruct (Nat.eqb_spec (v_len q) n);
    repeat split; intros H; auto; exfalso; tauto.
Qed.
