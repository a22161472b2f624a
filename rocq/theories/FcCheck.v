(** Proofs about collision checks. *)
From Coq Require Import ZArith String List Bool Reals Arith Lia.
From Verif Require Import TfModel TfSpec SgModel SgSpec SgInvProofs SgQueryProofs SgClaims2 ClModel ClSpec ClProofs ClAllowProofs FcModel FcSpec FcGeom.
Import ListNotations.
Open Scope Z_scope.

Section Check.
Variable hit : placed -> placed -> bool.

(** A pair that was visited and found in a forbidden contact. *)
Definition found (al : clset) (ps : list placed) (vs : list (nat * nat)) (a b : Z) : Prop :=
  exists i j x y, In (i, j) vs /\ nth_error ps i = Some x /\ nth_error ps j = Some y /\
    p_id x <> p_id y /\ cl_get al (p_id x) (p_id y) = Ok false /\ hit x y = true /\ same_pair a b (p_id x) (p_id y).
Lemma found_cons al ps i j x y vs a b : nth_error ps i = Some x -> nth_error ps j = Some y ->
  found al ps ((i, j) :: vs) a b <->
  (p_id x <> p_id y /\ cl_get al (p_id x) (p_id y) = Ok false /\ hit x y = true /\ same_pair a b (p_id x) (p_id y)) \/ found al ps vs a b.
Proof.
  intros X Y. split.
  - intros (i' & j' & x' & y' & [[= <- <-]|K] & X' & Y' & R).
    + left. rewrite X in X'. rewrite Y in Y'. injection X' as <-. injection Y' as <-. exact R.
    + right. exists i', j', x', y'. auto.
  - intros [R|(i' & j' & x' & y' & K & R)]; [exists i, j, x, y|exists i', j', x', y']; cbn; auto 8.
Qed.

Variables (n : nat) (al : clset) (ps : list placed).
Hypothesis Wal : wf n al.
Hypothesis Vp : forall p, In p ps -> valid n (p_id p).

Lemma get_al x y : In x ps -> In y ps -> exists b, cl_get al (p_id x) (p_id y) = Ok b.
Proof. intros X Y. rewrite (cl_get_valid n) by auto. eauto. Qed.

Lemma visit_none vs : pairs_of (length ps) vs -> forall r, exists b, visit_all hit al ps vs r None = Ok (b, None) /\
  (b = true <-> r = true \/ exists a b, found al ps vs a b).
Proof.
  induction vs as [|[i j] vs IH]; intros P r.
  - exists r. split; [reflexivity|]. split; [auto|]. intros [H|(a & b & i & j & x & y & [] & _)]; auto.
  - destruct (P i j (or_introl eq_refl)) as (Li & Lj & _).
    destruct (nth_error ps i) as [x|] eqn:X; [|apply nth_error_None in X; lia].
    destruct (nth_error ps j) as [y|] eqn:Y; [|apply nth_error_None in Y; lia].
    cbn [visit_all]. rewrite X, Y. cbn [from bind].
    assert (IH' := IH (fun a b H => P a b (or_intror H))). clear IH.
    assert (Skip : (~ (p_id x <> p_id y /\ cl_get al (p_id x) (p_id y) = Ok false /\ hit x y = true)) -> forall a b,
       found al ps ((i, j) :: vs) a b <-> found al ps vs a b).
    { intros N a b. rewrite (found_cons _ _ _ _ x y) by auto. tauto. }
    assert (Go : forall r', (~ (p_id x <> p_id y /\ cl_get al (p_id x) (p_id y) = Ok false /\ hit x y = true)) ->
      exists b, visit_all hit al ps vs r' None = Ok (b, None) /\ (b = true <-> r' = true \/ exists a b0, found al ps ((i, j) :: vs) a b0)).
    { intros r' N. destruct (IH' r') as (b & E & H). exists b. split; [exact E|]. rewrite H.
      split; (intros [H0|(c & d & H0)]; [now left|right; exists c, d; now apply (Skip N)]). }
    unfold check_callback. destruct (Z.eqb_spec (p_id x) (p_id y)) as [Eq|Ne]; cbn [bind].
    + apply Go. tauto.
    + destruct (get_al x y) as [g Eg]; [eapply nth_error_In; eauto..|]. rewrite Eg. cbn [bind]. destruct g; cbn [bind].
      * apply Go. intros (_ & H & _). congruence.
      * destruct (hit x y) eqn:H; cbn [bind].
        -- exists true. split; [reflexivity|]. split; [|auto]. intros _. right. exists (p_id x), (p_id y).
           apply (found_cons _ _ _ _ x y); auto. left. repeat split; auto. left; auto.
        -- apply Go. intros (_ & _ & F). congruence.
Qed.

Lemma visit_some vs : pairs_of (length ps) vs -> forall r c, made n c -> exists b c', visit_all hit al ps vs r (Some c) = Ok (b, Some c') /\
  made n c' /\ (b = true <-> r = true \/ exists a b, found al ps vs a b) /\
  forall k l, valid n k -> valid n l -> (cl_get c' k l = Ok true <-> cl_get c k l = Ok true \/ found al ps vs k l).
Proof.
  induction vs as [|[i j] vs IH]; intros P r c M.
  - exists r, c. split; [reflexivity|]. split; [auto|]. split; [split; [auto|]; intros [H|(a & b & i & j & x & y & [] & _)]; auto|].
    intros k l _ _. split; [auto|]. intros [H|(i & j & x & y & [] & _)]; auto.
  - destruct (P i j (or_introl eq_refl)) as (Li & Lj & _).
    destruct (nth_error ps i) as [x|] eqn:X; [|apply nth_error_None in X; lia].
    destruct (nth_error ps j) as [y|] eqn:Y; [|apply nth_error_None in Y; lia].
    cbn [visit_all]. rewrite X, Y. cbn [from bind].
    assert (IH' := IH (fun a b H => P a b (or_intror H))). clear IH.
    assert (Vx := Vp x (nth_error_In _ _ X)). assert (Vy := Vp y (nth_error_In _ _ Y)).
    assert (Skip : (~ (p_id x <> p_id y /\ cl_get al (p_id x) (p_id y) = Ok false /\ hit x y = true)) -> forall a b,
       found al ps ((i, j) :: vs) a b <-> found al ps vs a b).
    { intros N a b. rewrite (found_cons _ _ _ _ x y) by auto. tauto. }
    assert (Go : (~ (p_id x <> p_id y /\ cl_get al (p_id x) (p_id y) = Ok false /\ hit x y = true)) ->
      exists b c', visit_all hit al ps vs r (Some c) = Ok (b, Some c') /\ made n c' /\
        (b = true <-> r = true \/ exists a b0, found al ps ((i, j) :: vs) a b0) /\
        forall k l, valid n k -> valid n l -> (cl_get c' k l = Ok true <-> cl_get c k l = Ok true \/ found al ps ((i, j) :: vs) k l)).
    { intros N. destruct (IH' r c M) as (b & c' & E & M' & H & G). exists b, c'. split; [exact E|]. split; [exact M'|]. split.
      - rewrite H. split; (intros [H0|(u & d & H0)]; [now left|right; exists u, d; now apply (Skip N)]).
      - intros k l Vk Vl. rewrite (Skip N). auto. }
    unfold check_callback. destruct (Z.eqb_spec (p_id x) (p_id y)) as [Eq|Ne]; cbn [bind].
    + apply Go. tauto.
    + destruct (get_al x y) as [g Eg]; [eapply nth_error_In; eauto..|]. rewrite Eg. cbn [bind]. destruct g; cbn [bind].
      * apply Go. intros (_ & H & _). congruence.
      * destruct (hit x y) eqn:H; cbn [bind].
        -- destruct (c56_set n c (p_id x) (p_id y) true M Vx Vy) as (c1 & E1 & G1). rewrite E1. cbn [bind].
           destruct (IH' true c1 (made_set _ _ _ _ _ _ M E1)) as (b & c' & E & M' & Hb & G). rewrite E.
           exists b, c'. split; [reflexivity|]. split; [exact M'|]. split.
           ++ rewrite Hb. split; [|now left]. intros _. right. exists (p_id x), (p_id y).
              apply (found_cons _ _ _ _ x y); auto. left. repeat split; auto. left; auto.
           ++ intros k l Vk Vl. rewrite (G k l Vk Vl), (found_cons _ _ _ _ x y) by auto. destruct (G1 k l Vk Vl) as [A B].
              assert (Dec : same_pair (p_id x) (p_id y) k l \/ ~ same_pair (p_id x) (p_id y) k l) by (unfold same_pair; lia).
              assert (Sw : same_pair k l (p_id x) (p_id y) <-> same_pair (p_id x) (p_id y) k l) by (unfold same_pair; lia).
              destruct Dec as [D|D]; [rewrite (A D)|rewrite (B D)]; rewrite Sw.
              ** split; [intros _; right; left; auto|now left].
              ** split; [intros [K|K]; auto|intros [K|[(_ & _ & _ & K)|K]]; auto; contradiction].
        -- apply Go. intros (_ & _ & F). congruence.
Qed.

Lemma found_forbidden vs a b : (forall x y, hit x y = hit y x) -> visits hit ps vs ->
  found al ps vs a b <-> forbidden hit al ps a b.
Proof.
  intros Sy [P V]. unfold found, forbidden, touching.
  assert (Sg : forall x y, In x ps -> In y ps -> cl_get al (p_id x) (p_id y) = cl_get al (p_id y) (p_id x)).
  { intros. rewrite !(cl_get_valid n) by auto. now rewrite pos_sym. }
  split.
  - intros (i & j & x & y & K & X & Y & Ne & G & H & [[-> ->]|[-> ->]]); apply nth_error_In in X, Y; (split; [auto|split]); auto.
    + exists x, y. auto 8.
    + rewrite Sg; auto.
    + exists y, x. auto 8.
  - intros (Ne & G & x & y & X & Y & <- & <- & H).
    apply In_nth_error in X as [i X], Y as [j Y].
    assert (H' : hit x y = true) by (destruct H as [H|H]; [auto|now rewrite Sy]).
    assert (i <> j) by (intros ->; congruence).
    destruct (V i j x y) as [K|K]; auto.
    + exists i, j, x, y. unfold same_pair. auto 10.
    + exists j, i, y, x. rewrite Sy. rewrite Sg by (eapply nth_error_In; eauto). unfold same_pair. auto 10.
Qed.

(** A check finds exactly the forbidden pairs. *)
Lemma check_none vs : (forall x y, hit x y = hit y x) -> visits hit ps vs -> exists b, visit_all hit al ps vs false None = Ok (b, None) /\
  (b = true <-> exists a b, forbidden hit al ps a b).
Proof.
  intros Sy V. destruct (visit_none vs (proj1 V) false) as (b & E & H). exists b. split; [exact E|]. rewrite H. split.
  - intros [K|(u & v & K)]; [discriminate|]. exists u, v. now apply (found_forbidden vs).
  - intros (u & v & K). right. exists u, v. now apply (found_forbidden vs).
Qed.
Lemma check_some vs c : (forall x y, hit x y = hit y x) -> visits hit ps vs -> made n c -> exists b c', visit_all hit al ps vs false (Some c) = Ok (b, Some c') /\
  made n c' /\ (b = true <-> exists a b, forbidden hit al ps a b) /\
  forall k l, valid n k -> valid n l -> (cl_get c' k l = Ok true <-> cl_get c k l = Ok true \/ forbidden hit al ps k l).
Proof.
  intros Sy V M. destruct (visit_some vs (proj1 V) false c M) as (b & c' & E & M' & H & G). exists b, c'. split; [exact E|]. split; [exact M'|]. split.
  - rewrite H. split.
    + intros [K|(u & v & K)]; [discriminate|]. exists u, v. now apply (found_forbidden vs).
    + intros (u & v & K). right. exists u, v. now apply (found_forbidden vs).
  - intros k l Vk Vl. rewrite <- (found_forbidden vs) by auto. auto.
Qed.
End Check.

(** ** The check, with the objects of a scene *)
Lemma place_ids f os : forall ps, place_all f os = Ok ps -> map p_id ps = map o_id os.
Proof.
  induction os as [|o os IH]; intros ps E; cbn [place_all] in E; [now injection E as <-|].
  unfold place_obj in E. destruct (f (o_id o)); try discriminate. cbn [bind] in E.
  destruct (place_all f os) as [t| | |] eqn:Et; try discriminate. cbn [bind] in E. injection E as <-. cbn. f_equal. auto.
Qed.
Lemma c94_check hit n al os f ps vs : (forall x y, hit x y = hit y x) -> made n al -> (forall o, In o os -> valid n (o_id o)) ->
  place_all f os = Ok ps -> visits hit ps vs ->
  (exists b, cl_check hit al os f vs None = Ok (b, None) /\ (b = true <-> exists a b, forbidden hit al ps a b)) /\
  forall c, made n c -> exists b c', cl_check hit al os f vs (Some c) = Ok (b, Some c') /\ made n c' /\
    (b = true <-> exists a b, forbidden hit al ps a b) /\
    forall k l, valid n k -> valid n l -> (cl_get c' k l = Ok true <-> cl_get c k l = Ok true \/ forbidden hit al ps k l).
Proof.
  intros Sy M Vo Ep V. unfold cl_check. rewrite Ep. cbn [bind].
  assert (Vp : forall p, In p ps -> valid n (p_id p)).
  { intros p K. apply (in_map p_id) in K. rewrite (place_ids _ _ _ Ep) in K. apply in_map_iff in K as (o & <- & K). auto. }
  split; [apply (check_none hit n)|intros c Mc; apply (check_some hit n)]; auto using made_wf.
Qed.

(** Two bodies in a collision that is not allowed. *)
Lemma exact_sym hit : exact_hit hit -> forall x y, hit x y = hit y x.
Proof.
  intros X x y. assert (H : hit x y = true <-> hit y x = true).
  { rewrite !(X _ _). split; intros (p & A & B); exists p; auto. }
  destruct (hit x y), (hit y x); intuition congruence.
Qed.
Lemma c94_exact hit n al gs l f : exact_hit hit -> made n al -> Forall good_geom gs -> Forall plain gs ->
  (forall z i, In (z, i) l -> valid n z /\ (i < length gs)%nat /\ exists E, f z = Ok E /\ unit_qutr E) ->
  exists gs' os ps, init_geoms l gs = Ok gs' /\ create_objs gs' l = Ok os /\ place_all f os = Ok ps /\
  forall vs, visits hit ps vs -> exists b, cl_check hit al os f vs None = Ok (b, None) /\
  (b = true <-> exists z1 z2 g1 g2 E1 E2 x, z1 <> z2 /\ cl_get al z1 z2 = Ok false /\
     body gs l z1 g1 /\ body gs l z2 g2 /\ f z1 = Ok E1 /\ f z2 = Ok E2 /\ drawn g1 E1 x /\ drawn g2 E2 x).
Proof.
  intros X M G Pl H.
  destruct (c93_objects gs l f G) as (gs' & os & ps & E1 & E2 & E3 & A & B).
  { intros z i K. now apply (H z i). } { intros z i K. now apply (H z i). }
  exists gs', os, ps. repeat (split; [assumption|]). intros vs V.
  assert (Pb : forall z g, body gs l z g -> plain g).
  { intros z g (i & _ & K & _). rewrite Forall_forall in Pl. apply Pl. eapply nth_error_In; eauto. }
  assert (Vb : forall z g, body gs l z g -> valid n z /\ exists E, f z = Ok E).
  { intros z g (i & K & _). destruct (H z i K) as (Vz & _ & E & Ef & _). eauto. }
  assert (Vo : forall o, In o os -> valid n (o_id o)).
  { intros o K. apply (in_map o_id) in K. rewrite <- (place_ids _ _ _ E3) in K. apply in_map_iff in K as (p & <- & K).
    destruct (A p K) as (g & E & Bd & _). now apply (Vb _ g). }
  destruct (c94_check hit n al os f ps vs (exact_sym _ X) M Vo E3 V) as [(b & Eb & Hb) _].
  exists b. split; [exact Eb|]. rewrite Hb. split.
  - intros (z1 & z2 & Ne & Ga & p & q & Ip & Iq & <- & <- & Hh).
    destruct (A p Ip) as (g1 & F1 & B1 & Ef1 & D1), (A q Iq) as (g2 & F2 & B2 & Ef2 & D2).
    assert (exists x, occupied p x /\ occupied q x) as (x & O1 & O2).
    { destruct Hh as [Hh|Hh]; apply X in Hh; destruct Hh as (x & ? & ?); exists x; auto. }
    exists (p_id p), (p_id q), g1, g2, F1, F2, x. repeat (split; [assumption|]).
    split; [apply D1|apply D2]; eauto.
  - intros (z1 & z2 & g1 & g2 & F1 & F2 & x & Ne & Ga & B1 & B2 & Ef1 & Ef2 & D1 & D2).
    destruct (B z1 g1 F1 B1 Ef1) as (p & Ip & <- & O1), (B z2 g2 F2 B2 Ef2) as (q & Iq & <- & O2).
    exists (p_id p), (p_id q). split; [exact Ne|]. split; [exact Ga|]. exists p, q. repeat (split; [auto|]). left. apply X. exists x.
    split; [apply O1|apply O2]; eauto.
Qed.
