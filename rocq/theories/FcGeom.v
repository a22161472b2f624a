(** Collision objects occupy the shapes they stand for. *)
From Coq Require Import ZArith List Bool Reals Arith Lia Lra Psatz.
From Verif Require Import TfModel TfSpec TfRepProofs SgModel ClModel ClSpec FcModel FcSpec.
Import ListNotations.
Open Scope R_scope.

Lemma v3_eq x y z x' y' z' : x = x' -> y = y' -> z = z' -> mkV x y z = mkV x' y' z'.
Proof. congruence. Qed.
Lemma vscale_inv k p : k <> 0 -> vscale k (vscale (/ k) p) = p.
Proof. intros. destruct p. unfold vscale; cbn. apply v3_eq; now field. Qed.
Lemma vscale_1 p : vscale 1 p = p.
Proof. destruct p. unfold vscale; cbn. apply v3_eq; ring. Qed.

(** ** Meshes *)
Lemma nth_skip3 {A} (x y z : A) r k d : nth (3 * S k) (x :: y :: z :: r) d = nth (3 * k) r d /\
  nth (3 * S k + 1) (x :: y :: z :: r) d = nth (3 * k + 1) r d /\ nth (3 * S k + 2) (x :: y :: z :: r) d = nth (3 * k + 2) r d.
Proof. replace (3 * S k)%nat with (S (S (S (3 * k)))) by lia. now cbn [plus nth]. Qed.
Lemma mesh_verts_ok k n : forall v, (3 * n <= length v)%nat -> exists vs, mesh_verts k n v = Ok vs /\ length vs = n /\
  forall i, (i < n)%nat -> nth_error vs i = Some (vscale k (vertex v i)).
Proof.
  induction n as [|n IH]; intros v L; [exists []; repeat split; intros; lia|].
  destruct v as [|x [|y [|z r]]]; cbn [length] in L; try lia.
  destruct (IH r) as (vs & E & Ln & H); [lia|]. cbn [mesh_verts]. rewrite E. cbn [bind].
  eexists; split; [reflexivity|]. split; [cbn; lia|]. intros [|i] Hi; [reflexivity|].
  cbn [nth_error]. rewrite H by lia. unfold vertex. destruct (nth_skip3 x y z r i 0) as (-> & -> & ->). reflexivity.
Qed.
Lemma mesh_tris_ok n : forall f, (3 * n <= length f)%nat -> exists ts, mesh_tris n f = Ok ts /\
  forall i j k, In (i, j, k) ts <-> exists t, (t < n)%nat /\ i = nth (3 * t) f 0%nat /\ j = nth (3 * t + 1) f 0%nat /\ k = nth (3 * t + 2) f 0%nat.
Proof.
  induction n as [|n IH]; intros f L; [exists []; split; [reflexivity|]; intros; split; [intros []|intros (t & H & _); lia]|].
  destruct f as [|x [|y [|z r]]]; cbn [length] in L; try lia.
  destruct (IH r) as (ts & E & H); [lia|]. cbn [mesh_tris]. rewrite E. cbn [bind].
  eexists; split; [reflexivity|]. intros i j k. cbn [In]. rewrite H. split.
  - intros [[= <- <- <-]|(t & Ht & -> & -> & ->)]; [exists 0%nat; repeat split; lia|].
    exists (S t). destruct (nth_skip3 x y z r t 0%nat) as (-> & -> & ->). repeat split; lia.
  - intros ([|t] & Ht & -> & -> & ->); [now left|right]. exists t.
    destruct (nth_skip3 x y z r t 0%nat) as (-> & -> & ->). repeat split; lia.
Qed.
Lemma tri_scale k a b c q : k <> 0 ->
  in_tri (vscale k a) (vscale k b) (vscale k c) q <-> exists p, in_tri a b c p /\ q = vscale k p.
Proof.
  intros K. split.
  - intros (u & v & w & U & V & W & S1 & ->).
    exists (vadd (vscale u a) (vadd (vscale v b) (vscale w c))). split; [exists u, v, w; auto|].
    unfold vadd, vscale; cbn. apply v3_eq; ring.
  - intros (p & (u & v & w & U & V & W & S1 & ->) & ->). exists u, v, w. repeat (split; [assumption|]).
    unfold vadd, vscale; cbn. apply v3_eq; ring.
Qed.
Lemma forall_firstn_nth (P : nat -> Prop) n f i : Forall P (firstn n f) -> (i < n)%nat -> (n <= length f)%nat -> P (nth i f 0%nat).
Proof.
  intros F Hi L. rewrite Forall_forall in F. apply F.
  replace (nth i f 0%nat) with (nth i (firstn n f) 0%nat).
  - apply nth_In. rewrite firstn_length. lia.
  - rewrite <- (firstn_skipn n f) at 2. rewrite app_nth1; [reflexivity|rewrite firstn_length; lia].
Qed.
Lemma abs_scale k x d : 0 < k -> Rabs (k * x) <= k * d / 2 <-> Rabs x <= d / 2.
Proof. intros. rewrite Rabs_mult, (Rabs_right k) by lra. split; intros; nra. Qed.
Lemma sq_scale k a r : 0 < k -> (k * k * a <= k * r * (k * r) /\ 0 <= k * r) <-> (a <= r * r /\ 0 <= r).
Proof.
  intros K. assert (0 < k * k) by nra. split; intros [H1 H2]; split; nra.
Qed.

Definition is_cyl (s : shape) : bool := match s with SCyl _ _ => true | _ => false end.

(** Without cylinders, FCL's shape is the scaled shape. *)
Lemma shape_pts k s fs : 0 < k -> mesh_ok s -> is_cyl s = false -> fcl_shape k s = Ok (Some fs) ->
  forall q, in_fcl fs q <-> exists p, in_shape s p /\ q = vscale k p.
Proof.
  intros K M C E q. assert (K0 : k <> 0) by lra.
  destruct s as [|nv v nf f|d0 d1 d2|r|h r|h r0 r1|d0 d1 e0 e1 w|a b c]; try discriminate; cbn [fcl_shape] in E.
  - destruct M as (Lv & Lf & F).
    destruct (mesh_verts_ok k nv v Lv) as (vs & Ev & Ln & Hv). destruct (mesh_tris_ok nf f Lf) as (ts & Et & Ht).
    rewrite Ev, Et in E. cbn [bind] in E. injection E as <-. cbn [in_fcl in_shape].
    assert (B : forall t, (t < nf)%nat -> (nth (3 * t) f 0%nat < nv /\ nth (3 * t + 1) f 0%nat < nv /\ nth (3 * t + 2) f 0%nat < nv)%nat).
    { intros t Hlt. repeat split; apply (forall_firstn_nth _ _ _ _ F); lia. }
    split.
    + intros (i & j & l & a & b & c & Hin & Ea & Eb & Ec & Htri). apply Ht in Hin. destruct Hin as (t & Hlt & -> & -> & ->).
      destruct (B t Hlt) as (B1 & B2 & B3). rewrite Hv in Ea, Eb, Ec by assumption.
      injection Ea as <-. injection Eb as <-. injection Ec as <-. apply tri_scale in Htri; [|assumption].
      destruct Htri as (p & Hp & ->). exists p. split; [|reflexivity]. exists t. auto.
    + intros (p & (t & Hlt & Hp) & ->). destruct (B t Hlt) as (B1 & B2 & B3).
      do 6 eexists. split; [apply Ht; exists t; repeat split; assumption|]. rewrite !Hv by assumption.
      repeat (split; [reflexivity|]). apply tri_scale; [assumption|]. eauto.
  - injection E as <-. cbn [in_fcl in_shape]. split.
    + intros (A & B & D). exists (vscale (/ k) q). rewrite vscale_inv by assumption. split; [|reflexivity].
      rewrite <- (vscale_inv k q K0) in A, B, D. cbn [vscale vx vy vz] in *.
      rewrite !abs_scale in A, B, D by assumption. auto.
    + intros (p & (A & B & D) & ->). cbn [vscale vx vy vz]. rewrite !abs_scale by assumption. auto.
  - injection E as <-. cbn [in_fcl in_shape]. split.
    + intros A. exists (vscale (/ k) q). rewrite vscale_inv by assumption. split; [|reflexivity].
      rewrite <- (vscale_inv k q K0) in A. cbn [vscale vx vy vz] in *. apply (sq_scale k _ r K).
      destruct A as [A1 A2]. split; [nra|assumption].
    + intros (p & A & ->). cbn [vscale vx vy vz]. apply (sq_scale k _ r K) in A. destruct A as [A1 A2]. split; [nra|assumption].
Qed.

Definition lift (h : R) : QV := mkE (mkQ 0 0 0 1) (mkV 0 0 h).
Lemma lift_unit h : unit_qutr (lift h).
Proof. unfold unit_qutr, unitq, norm2, lift; cbn. unfold norm2; cbn. ring. Qed.
Lemma lift_tf h p : qutr_tf (lift h) p = mkV (vx p) (vy p) (vz p + h).
Proof. destruct p. unfold qutr_tf, lift, tf_qv; cbn. apply v3_eq; field. Qed.

(** Points of a placed cylinder: the shape is scaled, the offset is not. *)
Lemma cyl_pts k h r E z x : 0 < k -> unit_qutr E ->
  occupied (mkP z (FCyl (k * r) (k * h)) (qutr_mul E (lift (h / 2)))) x <->
  exists p, (vx p * vx p + vy p * vy p <= k * r * (k * r) /\ 0 <= k * r /\ h / 2 - k * h / 2 <= vz p <= h / 2 + k * h / 2) /\ x = qutr_tf E p.
Proof.
  intros K U. unfold occupied; cbn [p_fs p_E in_fcl]. split.
  - intros (p & (A & B & D) & ->). rewrite qutr_mul_acts by (try assumption; apply lift_unit).
    exists (qutr_tf (lift (h / 2)) p). split; [|reflexivity]. rewrite lift_tf; cbn [vx vy vz].
    split; [assumption|]. split; [assumption|]. unfold Rabs in D; destruct (Rcase_abs (vz p)); lra.
  - intros (p & (A & B & D) & ->). exists (mkV (vx p) (vy p) (vz p - h / 2)). split.
    + cbn [vx vy vz]. split; [assumption|]. split; [assumption|]. unfold Rabs; destruct (Rcase_abs _); lra.
    + rewrite qutr_mul_acts by (try assumption; apply lift_unit). rewrite lift_tf. destruct p; cbn. f_equal. apply v3_eq; ring.
Qed.

(** ** Objects *)
Lemma fcl_total k s : mesh_ok s -> exists o, fcl_shape k s = Ok o /\ (supported s <-> o <> None).
Proof.
  intros M. destruct s as [|nv v nf f|d0 d1 d2|r|h r|h r0 r1|d0 d1 e0 e1 w|a b c]; cbn [fcl_shape supported];
    try (eexists; split; [reflexivity|split; [intros []|congruence]]); try (eexists; split; [reflexivity|split; [discriminate|exact (fun _ => I)]]).
  destruct M as (Lv & Lf & F).
  destruct (mesh_verts_ok k nv v Lv) as (vs & -> & _). destruct (mesh_tris_ok nf f Lf) as (ts & -> & _). cbn [bind].
  eexists; split; [reflexivity|split; [discriminate|exact (fun _ => I)]].
Qed.
(** After the pass the geometry has the object made for it. *)
Definition inited (g g' : geom) : Prop :=
  g_coll g' = g_coll g /\ g_scale g' = g_scale g /\ g_shape g' = g_shape g /\
  (if g_coll g then fcl_shape (g_scale g) (g_shape g) = Ok (g_cl g') else g_cl g' = None).
Lemma init_geom_ok g : good_geom g -> exists g', init_geom g = Ok g' /\ inited g g' /\ good_geom g'.
Proof.
  intros (Fr & Sc & M). unfold init_geom, inited, good_geom, fresh in *. destruct g as [co sc sh cl]; cbn in *.
  destruct co; cbn [negb].
  - destruct cl as [fs|].
    + eexists; split; [reflexivity|]. cbn. repeat split; try assumption; apply Fr.
    + destruct (fcl_total sc sh M) as (o & E & _). rewrite E. cbn [bind]. eexists; split; [reflexivity|]. cbn. repeat split; try assumption.
      destruct o; auto.
  - eexists; split; [reflexivity|]. cbn. destruct cl; [destruct Fr; discriminate|]. repeat split; assumption.
Qed.
Lemma inited_trans g g' g'' : inited g g' -> inited g' g'' -> inited g g''.
Proof.
  unfold inited. intros (A & B & C & D) (A' & B' & C' & D'). rewrite A, B, C in *. repeat split; try congruence.
Qed.
Lemma set_at_nth {A} (l : list A) k x j : (k < length l)%nat -> nth_error (set_at l k x) j = if Nat.eqb k j then Some x else nth_error l j.
Proof.
  revert k j; induction l as [|a l IH]; intros k j L; [cbn in L; lia|].
  destruct k as [|k]; destruct j as [|j]; cbn; try reflexivity. apply IH. cbn in L. lia.
Qed.
Lemma init_geoms_ok l : forall gs, Forall good_geom gs -> (forall z i, In (z, i) l -> (i < length gs)%nat) ->
  exists gs', init_geoms l gs = Ok gs' /\ length gs' = length gs /\ Forall good_geom gs' /\
  forall i g, nth_error gs i = Some g -> exists g', nth_error gs' i = Some g' /\ (g' = g \/ inited g g') /\
    ((exists z, In (z, i) l) -> inited g g').
Proof.
  induction l as [|[z i] l IH]; intros gs G L.
  - exists gs. repeat split; auto. intros i g E. exists g. split; [assumption|]. split; [now left|]. intros [z []].
  - cbn [init_geoms]. destruct (nth_error gs i) as [g|] eqn:Eg; [|apply nth_error_None in Eg; specialize (L z i (or_introl eq_refl)); lia].
    cbn [from bind]. assert (Gg : good_geom g) by (rewrite Forall_forall in G; eapply G, nth_error_In; eassumption).
    destruct (init_geom_ok g Gg) as (g1 & -> & Ig & G1). cbn [bind].
    assert (Li : (i < length gs)%nat) by (apply nth_error_Some; congruence).
    assert (Ls : length (set_at gs i g1) = length gs).
    { clear. revert i; induction gs as [|a l IH]; intros [|i]; cbn; auto. }
    destruct (IH (set_at gs i g1)) as (gs' & E & Ln & G' & H).
    + rewrite Forall_forall. intros x Hx. apply In_nth_error in Hx. destruct Hx as [j Hj]. rewrite set_at_nth in Hj by assumption.
      destruct (Nat.eqb i j); [now injection Hj as <-|]. rewrite Forall_forall in G. eapply G, nth_error_In; eassumption.
    + intros z' i' Hin. rewrite Ls. apply (L z'). now right.
    + exists gs'. split; [assumption|]. split; [congruence|]. split; [assumption|].
      intros j h Eh. specialize (H j). rewrite set_at_nth in H by assumption.
      destruct (Nat.eqb_spec i j) as [->|Nij].
      * rewrite Eg in Eh; injection Eh as <-. destruct (H g1 eq_refl) as (g' & En & Ho & _).
        assert (inited g g') by (destruct Ho as [->|Ho]; [assumption|eapply inited_trans; eassumption]).
        exists g'. auto.
      * destruct (H h Eh) as (g' & En & Ho & Hl). exists g'. split; [assumption|]. split; [assumption|].
        intros (z' & [[= _ ?]|Hin]); [congruence|]. eauto.
Qed.

Lemma create_objs_ok gs l : (forall z i, In (z, i) l -> (i < length gs)%nat) -> exists os, create_objs gs l = Ok os /\
  forall o, In o os <-> exists i g, In (o_id o, i) l /\ nth_error gs i = Some g /\ g_cl g = Some (o_fs o) /\ o_shape o = g_shape g.
Proof.
  induction l as [|[z i] l IH]; intros L.
  - exists []. split; [reflexivity|]. intros o. split; [intros []|intros (i & g & [] & _)].
  - cbn [create_objs]. destruct (nth_error gs i) as [g|] eqn:Eg; [|apply nth_error_None in Eg; specialize (L z i (or_introl eq_refl)); lia].
    destruct IH as (os & -> & H); [intros; eapply L; right; eassumption|]. cbn [from bind].
    eexists; split; [reflexivity|]. intros o. split.
    + intros Ho. destruct (g_cl g) as [fs|] eqn:Ec.
      * destruct Ho as [<-|Ho]; [exists i, g; cbn; auto|]. apply H in Ho. destruct Ho as (i' & g' & Hin & R'). exists i', g'. split; [now right|assumption].
      * apply H in Ho. destruct Ho as (i' & g' & Hin & R'). exists i', g'. split; [now right|assumption].
    + intros (i' & g' & [[= -> ->]|Hin] & En & Ec & Es).
      * rewrite Eg in En; injection En as <-. rewrite Ec. left. destruct o; cbn in *; congruence.
      * assert (In o os) by (apply H; exists i', g'; auto). destruct (g_cl g); [now right|assumption].
Qed.
Lemma place_all_ok f os : (forall o, In o os -> exists E, f (o_id o) = Ok E) -> exists ps, place_all f os = Ok ps /\
  forall p, In p ps <-> exists o E, In o os /\ f (o_id o) = Ok E /\ p_id p = o_id o /\ p_fs p = o_fs o /\
    p_E p = match o_shape o with SCyl h _ => qutr_mul E (lift (h / 2)) | _ => E end.
Proof.
  induction os as [|o os IH]; intros F.
  - exists []. split; [reflexivity|]. intros p. split; [intros []|intros (o & E & [] & _)].
  - cbn [place_all]. unfold place_obj. destruct (F o (or_introl eq_refl)) as [E EE]. rewrite EE. cbn [bind].
    destruct IH as (ps & -> & H); [intros; apply F; now right|]. cbn [bind].
    eexists; split; [reflexivity|]. intros p. split.
    + intros [<-|Hp]; [exists o, E; split; [now left|]; split; [exact EE|]; now repeat split|].
      apply H in Hp. destruct Hp as (o' & E' & Hin & R'). exists o', E'. split; [now right|assumption].
    + intros (o' & E' & [<-|Hin] & Ef & Ei & Es & EP).
      * left. rewrite EE in Ef; injection Ef as <-. destruct p; cbn in *. unfold lift in EP. congruence.
      * right. apply H. exists o', E'. auto.
Qed.

(** ** C93 *)
Lemma occupied_drawn g fs E z : 0 < g_scale g -> mesh_ok (g_shape g) -> plain g -> unit_qutr E ->
  fcl_shape (g_scale g) (g_shape g) = Ok (Some fs) ->
  forall x, occupied (mkP z fs (match g_shape g with SCyl h _ => qutr_mul E (lift (h / 2)) | _ => E end)) x <-> drawn g E x.
Proof.
  intros K M P U Ef x. destruct (is_cyl (g_shape g)) eqn:C.
  - unfold plain, drawn in *. destruct (g_shape g) as [| | | |h r| | |] eqn:Es; try discriminate. cbn [fcl_shape] in Ef. injection Ef as <-.
    rewrite cyl_pts by assumption. rewrite P. cbn [in_shape]. split; intros (p & A & ->); exists p; rewrite ?vscale_1; (split; [|reflexivity]); lra.
  - pose proof (shape_pts _ _ _ K M C Ef) as H. unfold occupied, drawn; cbn [p_fs p_E].
    replace (match g_shape g with SCyl h _ => qutr_mul E (lift (h / 2)) | _ => E end) with E by (destruct (g_shape g); auto; discriminate).
    split.
    + intros (q & Hq & ->). apply H in Hq. destruct Hq as (p & Hp & ->). eauto.
    + intros (p & Hp & ->). exists (vscale (g_scale g) p). split; [apply H; eauto|reflexivity].
Qed.

Lemma c93_objects gs l f :
  Forall good_geom gs -> (forall z i, In (z, i) l -> (i < length gs)%nat) ->
  (forall z i, In (z, i) l -> exists E, f z = Ok E /\ unit_qutr E) ->
  exists gs' os ps, init_geoms l gs = Ok gs' /\ create_objs gs' l = Ok os /\ place_all f os = Ok ps /\
  (forall p, In p ps -> exists g E, body gs l (p_id p) g /\ f (p_id p) = Ok E /\ (plain g -> forall x, occupied p x <-> drawn g E x)) /\
  (forall z g E, body gs l z g -> f z = Ok E -> exists p, In p ps /\ p_id p = z /\ (plain g -> forall x, occupied p x <-> drawn g E x)).
Proof.
  intros G L F. destruct (init_geoms_ok l gs G L) as (gs' & E1 & Ln & G' & H1).
  destruct (create_objs_ok gs' l) as (os & E2 & H2); [intros z i; rewrite Ln; apply L|].
  assert (Fo : forall o, In o os -> exists E, f (o_id o) = Ok E).
  { intros o Ho. apply H2 in Ho. destruct Ho as (i & g & Hin & _). destruct (F _ _ Hin) as (E & EE & _). eauto. }
  destruct (place_all_ok f os Fo) as (ps & E3 & H3).
  exists gs', os, ps. repeat (split; [assumption|]). split.
  - intros p Hp. apply H3 in Hp. destruct Hp as (o & E & Ho & EE & Ei & Es & EP). apply H2 in Ho.
    destruct Ho as (i & g' & Hin & En & Ec & Esh).
    destruct (nth_error gs i) as [g|] eqn:Eg; [|apply nth_error_None in Eg; specialize (L _ _ Hin); lia].
    destruct (H1 i g Eg) as (g2 & En2 & _ & Hi). rewrite En in En2; injection En2 as <-.
    destruct (Hi (ex_intro (fun z => In (z, i) l) _ Hin)) as (I1 & I2 & I3 & I4).
    assert (Gg : good_geom g) by (rewrite Forall_forall in G; eapply G, nth_error_In; eassumption). destruct Gg as (Fr & Sc & M).
    destruct (g_coll g) eqn:Eco; [|congruence]. rewrite Ec in I4.
    exists g, E. rewrite Ei. split; [|split; [assumption|]].
    + exists i. repeat (split; [assumption|]). destruct (fcl_total (g_scale g) (g_shape g) M) as (o' & Eo & So). apply So. congruence.
    + intros P x. destruct (F _ _ Hin) as (E' & EE' & U). rewrite EE in EE'; injection EE' as <-.
      rewrite <- (occupied_drawn g (p_fs p) E (p_id p) Sc M P U) by congruence. destruct p as [pi pf pe]; cbn in *. subst pe. rewrite Esh, I3. reflexivity.
  - intros z g E (i & Hin & Eg & Eco & Su) EE.
    destruct (H1 i g Eg) as (g' & En & _ & Hi). destruct (Hi (ex_intro (fun z => In (z, i) l) _ Hin)) as (I1 & I2 & I3 & I4). rewrite Eco in I4.
    assert (Gg : good_geom g) by (rewrite Forall_forall in G; eapply G, nth_error_In; eassumption). destruct Gg as (Fr & Sc & M).
    destruct (fcl_total (g_scale g) (g_shape g) M) as (o' & Eo & So). apply So in Su. rewrite I4 in Eo; injection Eo as <-.
    destruct (g_cl g') as [fs|] eqn:Ec; [|congruence].
    set (E' := match g_shape g' with SCyl h _ => qutr_mul E (lift (h / 2)) | _ => E end).
    exists (mkP z fs E'). split; [|split; [reflexivity|]].
    + apply H3. exists (mkO z fs (g_shape g')), E. split; [|cbn; auto]. apply H2. exists i, g'. cbn. auto.
    + intros P x. unfold E'. rewrite I3. destruct (F _ _ Hin) as (E2' & EE' & U). rewrite EE in EE'; injection EE' as <-.
      apply occupied_drawn; auto.
Qed.

(** A scaled cylinder is misplaced: points drawn are not covered and points covered are not drawn. *)
Lemma c93_cylinder k h r E z g : 0 < k -> k <> 1 -> 0 < h -> 0 <= r -> unit_qutr E -> g_coll g = true -> g_scale g = k ->
  g_shape g = SCyl h r -> g_cl g = None ->
  exists g' o p x y, init_geom g = Ok g' /\ create_objs [g'] [(z, 0%nat)] = Ok [o] /\ place_obj (fun _ => Ok E) o = Ok p /\
  drawn g E x /\ ~ occupied p x /\ occupied p y /\ ~ drawn g E y.
Proof.
  intros K K1 Hh Hr U C Sc Sh Cl. destruct g as [co sc sh cl]; cbn in *; subst.
  unfold init_geom; cbn [g_coll negb g_cl g_scale g_shape fcl_shape bind].
  do 2 eexists. exists (mkP z (FCyl (k * r) (k * h)) (qutr_mul E (lift (h / 2)))).
  assert (Inj : forall p q, qutr_tf E p = qutr_tf E q -> p = q).
  { intros p q Hpq. assert (T : forall a, qutr_tf (qutr_conj E) (qutr_tf E a) = a).
    { intros a. rewrite <- qutr_mul_acts by (try assumption; now apply qutr_conj_unit).
      rewrite qutr_conj_l by assumption. unfold ident_qutr. destruct a. unfold qutr_tf, tf_qv; cbn. apply v3_eq; field. }
    rewrite <- (T p), <- (T q). congruence. }
  exists (qutr_tf E (vscale k (mkV 0 0 (if Rlt_dec k 1 then 0 else h)))).
  exists (qutr_tf E (mkV 0 0 (if Rlt_dec k 1 then h / 2 + k * h / 2 else h / 2 - k * h / 2))).
  repeat (split; [reflexivity|]).
  assert (Kh : (k < 1 -> k * h < h) /\ (k > 1 -> k * h > h)) by (split; intros; nra).
  assert (Q : 0 <= k * r * (k * r)) by (apply Rle_0_sqr). assert (Q2 : 0 <= r * r) by (apply Rle_0_sqr). assert (0 <= k * r) by nra. assert (0 < k * h) by nra.
  split; [|split; [|split]].
  - eexists; split; [|reflexivity]. cbn. split; [lra|]. split; [lra|]. destruct (Rlt_dec k 1); lra.
  - rewrite cyl_pts by assumption. intros (p & (A & B & D) & Ep). apply Inj in Ep. subst p. cbn in D. destruct (Rlt_dec k 1); nra.
  - apply cyl_pts; try assumption. eexists; split; [|reflexivity]. cbn. split; [lra|]. split; [lra|]. destruct (Rlt_dec k 1); lra.
  - intros (p & Hp & Ep). apply Inj in Ep. destruct p as [px py pz]. cbn in Hp, Ep. injection Ep as E1 E2 E3.
    destruct Hp as (_ & _ & Hz). destruct (Rlt_dec k 1); nra.
Qed.

(** Cones, grids and tori get no object. *)
Lemma c93_unsupported g : ~ supported (g_shape g) -> g_cl g = None -> exists g', init_geom g = Ok g' /\ forall z, create_objs [g'] [(z, 0%nat)] = Ok [].
Proof.
  intros Ns C. exists g. destruct g as [co sc sh cl]; cbn in *; subst. split; [|reflexivity].
  unfold init_geom; cbn. destruct co; [|reflexivity]. destruct sh; cbn in *; try reflexivity; tauto.
Qed.
