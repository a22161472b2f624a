(** Proofs about separation distances. *)
From Coq Require Import ZArith List Bool Reals Arith Lia Lra.
From Verif Require Import TfModel TfSpec TfProofs SgModel ClModel ClSpec ClProofs FcModel FcSpec FcGeom FcCheck.
Import ListNotations.
Open Scope R_scope.

Definition shaped (n : nat) (d : cldist) : Prop := cd_n d = n /\ length (cd_tab d) = (n * n)%nat.
Definition at_ (d : cldist) (a b : nat) : ent := nth (b * cd_n d + a) (cd_tab d) ent0.
Lemma idx_lt n a b : (b <= a < n)%nat -> (b * n + a < n * n)%nat.
Proof. nia. Qed.
Lemma idx_inj n a b a' b' : (b <= a < n)%nat -> (b' <= a' < n)%nat -> (b * n + a = b' * n + a')%nat -> a = a' /\ b = b'.
Proof. intros. assert (b = b') by nia. subst. split; lia. Qed.
Lemma get_at n d a b : shaped n d -> (b <= a < n)%nat -> get_ent d (Z.of_nat a) (Z.of_nat b) = Ok (at_ d a b).
Proof.
  intros [N L] H. unfold get_ent, dist_idx, at_. destruct (Z.ltb_spec (Z.of_nat a) (Z.of_nat b)); [lia|].
  destruct (Z.ltb_spec (Z.of_nat b) 0); [lia|]. cbn [bind]. rewrite !Nat2Z.id, N.
  rewrite (nth_error_nth' _ ent0); [reflexivity|]. rewrite L. now apply idx_lt.
Qed.
Lemma put_at n d a b e : shaped n d -> (b <= a < n)%nat -> exists d', put_ent d (Z.of_nat a) (Z.of_nat b) e = Ok d' /\ shaped n d' /\
  cd_coll d' = cd_coll d /\ at_ d' a b = e /\ forall a' b', (b' <= a' < n)%nat -> (a', b') <> (a, b) -> at_ d' a' b' = at_ d a' b'.
Proof.
  intros [N L] H. unfold put_ent, dist_idx. destruct (Z.ltb_spec (Z.of_nat a) (Z.of_nat b)); [lia|].
  destruct (Z.ltb_spec (Z.of_nat b) 0); [lia|]. cbn [bind]. rewrite !Nat2Z.id, N, L.
  pose proof (idx_lt n a b H) as Lt. destruct (Nat.ltb_spec (b * n + a) (n * n)); [|lia].
  eexists; split; [reflexivity|]. unfold at_, shaped. cbn. split; [split; [reflexivity|]|split; [reflexivity|split]].
  - rewrite <- L. clear. generalize (b * n + a)%nat as k. induction (cd_tab d) as [|x t IH]; intros [|k]; cbn; auto.
  - rewrite nth_set_at_d by lia. now rewrite Nat.eqb_refl.
  - intros a' b' H' Ne. rewrite nth_set_at_d by lia. destruct (Nat.eqb_spec (b * n + a) (b' * n + a')) as [E|_]; [|now rewrite N].
    apply idx_inj in E; [|lia..]. destruct E as [-> ->]. congruence.
Qed.

(** ** The start of a check *)
Lemma reset_rows_ok n j is : forall d, shaped n d -> (forall i, In i is -> (j < i < n)%nat) -> exists d', reset_rows j is d = Ok d' /\
  shaped n d' /\ cd_coll d' = cd_coll d /\ (forall i, In i is -> e_dist (at_ d' i j) = dbl_max) /\
  forall a b, (b <= a < n)%nat -> ~ (b = j /\ In a is) -> at_ d' a b = at_ d a b.
Proof.
  induction is as [|i r IH]; intros d Sh Hi.
  - exists d. repeat (split; [solve [auto]|]). split; [intros i []|auto].
  - cbn [reset_rows]. pose proof (Hi i (or_introl eq_refl)) as Li. rewrite (get_at n) by (auto; lia). cbn [bind].
    destruct (put_at n d i j (mkEnt dbl_max (e_p0 (at_ d i j)) (e_p1 (at_ d i j))) Sh) as (d1 & -> & S1 & C1 & A1 & O1); [lia|]. cbn [bind].
    destruct (IH d1 S1) as (d' & E & S' & C' & A' & O'); [intros; apply Hi; now right|].
    exists d'. split; [exact E|]. split; [exact S'|]. split; [congruence|]. split.
    + intros k [<-|K]; [|auto]. destruct (in_dec Nat.eq_dec i r) as [K|K]; [auto|].
      rewrite O' by (auto; try lia; tauto). now rewrite A1.
    + intros a b Hab Nk. rewrite O' by (auto; cbn in Nk; tauto). apply O1; [auto|]. intros [= -> ->]. apply Nk. cbn. auto.
Qed.
Lemma reset_cols_ok n js : forall d, shaped n d -> (forall j, In j js -> (j < n)%nat) -> exists d', reset_cols n js d = Ok d' /\
  shaped n d' /\ cd_coll d' = cd_coll d /\
  (forall j, In j js -> at_ d' j j = ent0 /\ forall i, (j < i < n)%nat -> e_dist (at_ d' i j) = dbl_max) /\
  forall a b, (b <= a < n)%nat -> ~ In b js -> at_ d' a b = at_ d a b.
Proof.
  induction js as [|j r IH]; intros d Sh Hj.
  - exists d. repeat (split; [solve [auto]|]). split; [intros j []|auto].
  - cbn [reset_cols]. pose proof (Hj j (or_introl eq_refl)) as Lj.
    destruct (put_at n d j j ent0 Sh) as (d1 & -> & S1 & C1 & A1 & O1); [lia|]. cbn [bind].
    destruct (reset_rows_ok n j (seq (S j) (n - S j)) d1 S1) as (d2 & -> & S2 & C2 & A2 & O2).
    { intros i K. apply in_seq in K. lia. }
    cbn [bind]. destruct (IH d2 S2) as (d' & E & S' & C' & A' & O'); [intros; apply Hj; now right|].
    exists d'. split; [exact E|]. split; [exact S'|]. split; [congruence|]. split.
    + intros k [<-|K]; [|auto]. destruct (in_dec Nat.eq_dec j r) as [K|K]; [auto|]. split.
      * rewrite O' by (auto; lia). rewrite O2 by (try lia; intros [_ H]; apply in_seq in H; lia). exact A1.
      * intros i Hi. rewrite O' by (auto; lia). apply A2. apply in_seq. lia.
    + intros a b Hab Nk. cbn in Nk. rewrite O' by (auto; tauto). rewrite O2 by (auto; intros [-> _]; tauto). apply O1; [auto|]. intros [= -> ->]. tauto.
Qed.
Lemma reset_ok n d : shaped n d -> exists d', reset d = Ok d' /\ shaped n d' /\ cd_coll d' = false /\
  (forall a, (a < n)%nat -> at_ d' a a = ent0) /\ forall a b, (b < a < n)%nat -> e_dist (at_ d' a b) = dbl_max.
Proof.
  intros [N L]. unfold reset. rewrite N.
  destruct (reset_cols_ok n (seq 0 n) (mkCD n false (cd_tab d))) as (d' & E & S' & C' & A & _); [split; auto|intros j K; apply in_seq in K; lia|].
  exists d'. split; [exact E|]. split; [exact S'|]. split; [exact C'|]. split.
  - intros a La. apply (A a). apply in_seq. lia.
  - intros a b Lab. apply (A b); [apply in_seq|]; lia.
Qed.

(** ** The traversal *)
Section Visit.
Variable near : placed -> placed -> R * V3 * V3.
Variable contacts : placed -> placed -> list (R * V3 * V3).

Lemma deepest_ok l : forall m p0 p1 x y0 y1, deepest l m p0 p1 = (x, y0, y1) ->
  m <= x /\ (forall depth pos nrm, In (depth, pos, nrm) l -> depth <= x) /\
  ((x = m /\ y0 = p0 /\ y1 = p1) \/ exists nrm, In (x, y0, nrm) l /\ y1 = vadd y0 (vscale x nrm)).
Proof.
  induction l as [|[[dp ps] nr] r IH]; intros m p0 p1 x y0 y1 E; cbn [deepest] in E.
  - injection E as <- <- <-. split; [lra|]. split; [intros ? ? ? []|auto].
  - destruct (Rlt_dec m dp) as [H|H]; apply IH in E as (A & B & C).
    + split; [lra|]. split; [intros d' p' n' [[= -> -> ->]|K]; [exact A|eauto]|].
      destruct C as [(-> & -> & ->)|(nrm & K & ->)]; right; [exists nr|exists nrm].
      * split; [now left|]. unfold vadd, vscale; cbn. f_equal; ring.
      * split; [now right|reflexivity].
    + split; [lra|]. split; [intros d' p' n' [[= -> -> ->]|K]; [lra|eauto]|].
      destruct C as [C|(nrm & K & ->)]; [now left|right; exists nrm; split; [now right|reflexivity]].
Qed.
Lemma separation_unique x y s p q s' p' q' : separation near contacts x y s p q -> separation near contacts x y s' p' q' -> s = s'.
Proof.
  unfold separation. destruct (near x y) as [[m n0] n1]. intros [(A & -> & _)|(A & B & C & D)] [(A' & -> & _)|(A' & B' & C' & D')]; try lra.
  destruct D as [(D & _)|(nr & D & _)], D' as [(D' & _)|(nr' & D' & _)].
  - lra.
  - apply C in D'. lra.
  - apply C' in D. lra.
  - apply C in D'. apply C' in D. lra.
Qed.

Definition closer (al : clset) (ps : list placed) (vs : list (nat * nat)) (a b : nat) (x y : placed) : Prop :=
  cl_get al (Z.of_nat a) (Z.of_nat b) = Ok false /\ p_id x = Z.of_nat a /\ p_id y = Z.of_nat b /\
  exists i j, In (i, j) vs /\ (nth_error ps i = Some x /\ nth_error ps j = Some y \/ nth_error ps i = Some y /\ nth_error ps j = Some x).

Variables (n : nat) (al : clset) (ps : list placed).
Hypothesis Wal : wf n al.
Hypothesis Vp : forall p, In p ps -> valid n (p_id p).

(** What one pair does to the table. *)
Lemma callback_ok d i j a0 b0 : shaped n d -> nth_error ps i = Some a0 -> nth_error ps j = Some b0 -> exists d',
  dist_callback near contacts al a0 b0 d = Ok d' /\ shaped n d' /\ (forall a, (a < n)%nat -> at_ d' a a = at_ d a a) /\
  (forall a b, (b < a < n)%nat ->
     e_dist (at_ d' a b) <= e_dist (at_ d a b) /\
     (forall x y s p q, closer al ps [(i, j)] a b x y -> separation near contacts x y s p q -> e_dist (at_ d' a b) <= s) /\
     (at_ d' a b = at_ d a b \/ exists x y, closer al ps [(i, j)] a b x y /\
        separation near contacts x y (e_dist (at_ d' a b)) (e_p0 (at_ d' a b)) (e_p1 (at_ d' a b)))) /\
  (cd_coll d' = true <-> cd_coll d = true \/ exists a b x y, (b < a < n)%nat /\ closer al ps [(i, j)] a b x y /\ fst (fst (near x y)) <= 0).
Proof.
  intros Sh X Y. unfold dist_callback.
  assert (Va := Vp _ (nth_error_In _ _ X)). assert (Vb := Vp _ (nth_error_In _ _ Y)). unfold valid in Va, Vb.
  assert (Keep : (forall a b x y, (b < a < n)%nat -> ~ closer al ps [(i, j)] a b x y) ->
    exists d', Ok d = Ok d' /\ shaped n d' /\ (forall a, (a < n)%nat -> at_ d' a a = at_ d a a) /\
    (forall a b, (b < a < n)%nat ->
     e_dist (at_ d' a b) <= e_dist (at_ d a b) /\
     (forall x y s p q, closer al ps [(i, j)] a b x y -> separation near contacts x y s p q -> e_dist (at_ d' a b) <= s) /\
     (at_ d' a b = at_ d a b \/ exists x y, closer al ps [(i, j)] a b x y /\
        separation near contacts x y (e_dist (at_ d' a b)) (e_p0 (at_ d' a b)) (e_p1 (at_ d' a b)))) /\
    (cd_coll d' = true <-> cd_coll d = true \/ exists a b x y, (b < a < n)%nat /\ closer al ps [(i, j)] a b x y /\ fst (fst (near x y)) <= 0)).
  { intros N. exists d. split; [reflexivity|]. split; [exact Sh|]. split; [auto|]. split.
    - intros a b Hab. split; [lra|]. split; [intros x y s p q C; exfalso; eapply N; eauto|now left].
    - split; [auto|]. intros [H|(a & b & x & y & H & C & _)]; [exact H|exfalso; eapply N; eauto]. }
  assert (Cl : forall a b x y, closer al ps [(i, j)] a b x y -> x = a0 /\ y = b0 \/ x = b0 /\ y = a0).
  { intros a b x y (_ & _ & _ & i' & j' & [[= <- <-]|[]] & [[A B]|[A B]]); rewrite X in A; rewrite Y in B; injection A as <-; injection B as <-; auto. }
  destruct (Z.eqb_spec (p_id a0) (p_id b0)) as [Eq|Ne].
  { apply Keep. intros a b x y H C. pose proof C as (_ & Ia & Ib & _). apply Cl in C as [[-> ->]|[-> ->]]; lia. }
  set (o := if (p_id a0 <? p_id b0)%Z then (b0, a0) else (a0, b0)).
  assert (Ho : exists o1 o2 a b, o = (o1, o2) /\ p_id o1 = Z.of_nat a /\ p_id o2 = Z.of_nat b /\ (b < a < n)%nat /\
     (nth_error ps i = Some o1 /\ nth_error ps j = Some o2 \/ nth_error ps i = Some o2 /\ nth_error ps j = Some o1) /\
     (forall a' b' x y, (b' < a')%nat -> closer al ps [(i, j)] a' b' x y -> x = o1 /\ y = o2 /\ a' = a /\ b' = b)).
  { unfold o. destruct (Z.ltb_spec (p_id a0) (p_id b0)).
    - exists b0, a0, (Z.to_nat (p_id b0)), (Z.to_nat (p_id a0)). repeat (split; [solve [auto|lia]|]).
      intros a' b' x y H' C. pose proof C as (_ & Ia & Ib & _). apply Cl in C as [[-> ->]|[-> ->]]; repeat split; lia.
    - exists a0, b0, (Z.to_nat (p_id a0)), (Z.to_nat (p_id b0)). repeat (split; [solve [auto|lia]|]).
      intros a' b' x y H' C. pose proof C as (_ & Ia & Ib & _). apply Cl in C as [[-> ->]|[-> ->]]; repeat split; lia. }
  destruct Ho as (o1 & o2 & a & b & -> & I1 & I2 & Hab & Hn & Only). rewrite I1, I2.
  assert (Vaa : valid n (Z.of_nat a)) by (unfold valid; lia). assert (Vbb : valid n (Z.of_nat b)) by (unfold valid; lia).
  rewrite (cl_get_valid n al) by auto. cbn [bind].
  destruct (nth (pos n (Z.of_nat a) (Z.of_nat b)) (c_v al) false) eqn:Ga.
  { apply Keep. intros a' b' x y H' C. destruct (Only a' b' x y) as (_ & _ & -> & ->); auto; [lia|].
    destruct C as (G & _). rewrite (cl_get_valid n al) in G by auto. congruence. }
  assert (Cthis : closer al ps [(i, j)] a b o1 o2).
  { split; [rewrite (cl_get_valid n al) by auto; now rewrite Ga|]. split; [exact I1|]. split; [exact I2|]. exists i, j. split; [now left|exact Hn]. }
  rewrite (get_at n) by (auto; lia). cbn [bind].
  destruct (near o1 o2) as [[m p0] p1] eqn:En.
  set (t := if Rle_dec m 0 then let '(x, y0, y1) := deepest (contacts o1 o2) 0 p0 p1 in (- x, y0, y1, true) else (m, p0, p1, cd_coll d)).
  assert (Ht : exists s q0 q1 c, t = (s, q0, q1, c) /\ separation near contacts o1 o2 s q0 q1 /\ (c = true <-> cd_coll d = true \/ m <= 0)).
  { unfold t, separation. rewrite En. destruct (Rle_dec m 0) as [H|H].
    - destruct (deepest (contacts o1 o2) 0 p0 p1) as [[x y0] y1] eqn:Ed. apply deepest_ok in Ed as (A & B & C).
      exists (- x), y0, y1, true. split; [reflexivity|]. split; [|tauto]. right. rewrite Ropp_involutive. repeat (split; [solve [auto|lra]|]).
      destruct C as [(-> & C)|C]; [left; split; [lra|exact C]|right; exact C].
    - exists m, p0, p1, (cd_coll d). split; [reflexivity|]. split; [left; repeat split; lra|]. split; [auto|]. intros [K|K]; [exact K|lra]. }
  destruct Ht as (s & q0 & q1 & c & -> & Hs & Hc).
  assert (Sh' : shaped n (mkCD (cd_n d) c (cd_tab d))) by exact Sh.
  assert (Coll : c = true <-> cd_coll d = true \/ exists a b x y, (b < a < n)%nat /\ closer al ps [(i, j)] a b x y /\ fst (fst (near x y)) <= 0).
  { rewrite Hc. split; (intros [H|H]; [now left|right]).
    - exists a, b, o1, o2. rewrite En. auto.
    - destruct H as (a' & b' & x & y & H & C & L). destruct (Only a' b' x y) as (-> & -> & _); auto; [lia|]. rewrite En in L. exact L. }
  assert (Un : forall x y s' p' q', closer al ps [(i, j)] a b x y -> separation near contacts x y s' p' q' -> s' = s).
  { intros x y s' p' q' C Hs'. destruct (Only a b x y) as (-> & -> & _); auto; [lia|]. eapply separation_unique; eauto. }
  destruct (Rlt_dec s (e_dist (at_ d a b))) as [Lt|Ge].
  - destruct (put_at n _ a b (mkEnt s q0 q1) Sh') as (d' & E & S' & C' & A' & O'); [lia|].
    exists d'. split; [exact E|]. split; [exact S'|]. split; [intros a' La; apply O'; [lia|intros [= -> ->]; lia]|]. split; [|rewrite C'; exact Coll].
    intros a' b' Hab'. destruct (Nat.eq_dec a' a) as [->|Na]; [destruct (Nat.eq_dec b' b) as [->|Nb]|].
    + rewrite A'. cbn [e_dist e_p0 e_p1]. split; [lra|]. split.
      * intros x y s' p' q' C Hs'. rewrite (Un _ _ _ _ _ C Hs'). lra.
      * right. exists o1, o2. auto.
    + rewrite O' by (try lia; congruence). split; [unfold at_; cbn; lra|]. split; [|now left].
      intros x y s' p' q' C _. destruct (Only a b' x y) as (_ & _ & _ & ->); auto; [lia|congruence].
    + rewrite O' by (try lia; congruence). split; [unfold at_; cbn; lra|]. split; [|now left].
      intros x y s' p' q' C _. destruct (Only a' b' x y) as (_ & _ & -> & _); auto; [lia|congruence].
  - eexists. split; [reflexivity|]. split; [exact Sh'|]. split; [auto|]. split; [|exact Coll].
    intros a' b' Hab'. unfold at_; cbn [cd_n cd_tab]. fold (at_ d a' b'). split; [lra|]. split; [|now left].
    intros x y s' p' q' C Hs'. destruct (Only a' b' x y) as (-> & -> & -> & ->); auto; [lia|]. rewrite (Un _ _ _ _ _ C Hs'). lra.
Qed.
Lemma closer_cons v vs a b x y : closer al ps (v :: vs) a b x y <-> closer al ps [v] a b x y \/ closer al ps vs a b x y.
Proof.
  unfold closer. split.
  - intros (G & A & B & i & j & [->|K] & H); [left|right]; repeat (split; [assumption|]); exists i, j; cbn; auto.
  - intros [(G & A & B & i & j & [->|[]] & H)|(G & A & B & i & j & K & H)]; repeat (split; [assumption|]); exists i, j; cbn; auto.
Qed.
Lemma visit_ok vs : pairs_of (length ps) vs -> forall d, shaped n d -> exists d',
  dist_visit near contacts al ps vs d = Ok d' /\ shaped n d' /\ (forall a, (a < n)%nat -> at_ d' a a = at_ d a a) /\
  (forall a b, (b < a < n)%nat ->
     e_dist (at_ d' a b) <= e_dist (at_ d a b) /\
     (forall x y s p q, closer al ps vs a b x y -> separation near contacts x y s p q -> e_dist (at_ d' a b) <= s) /\
     (at_ d' a b = at_ d a b \/ exists x y, closer al ps vs a b x y /\
        separation near contacts x y (e_dist (at_ d' a b)) (e_p0 (at_ d' a b)) (e_p1 (at_ d' a b)))) /\
  (cd_coll d' = true <-> cd_coll d = true \/ exists a b x y, (b < a < n)%nat /\ closer al ps vs a b x y /\ fst (fst (near x y)) <= 0).
Proof.
  induction vs as [|[i j] vs IH]; intros P d Sh.
  - assert (N : forall a b x y, ~ closer al ps [] a b x y) by (intros a b x y (_ & _ & _ & i & j & [] & _)).
    exists d. split; [reflexivity|]. split; [exact Sh|]. split; [auto|]. split.
    + intros a b Hab. split; [lra|]. split; [intros x y s p q C; exfalso; eapply N; eauto|now left].
    + split; [auto|]. intros [H|(a & b & x & y & H & C & _)]; [exact H|exfalso; eapply N; eauto].
  - destruct (P i j (or_introl eq_refl)) as (Li & Lj & _).
    destruct (nth_error ps i) as [x|] eqn:X; [|apply nth_error_None in X; lia].
    destruct (nth_error ps j) as [y|] eqn:Y; [|apply nth_error_None in Y; lia].
    cbn [dist_visit]. rewrite X, Y. cbn [from bind].
    destruct (callback_ok d i j x y Sh X Y) as (d1 & -> & S1 & D1 & T1 & C1). cbn [bind].
    destruct (IH (fun a b H => P a b (or_intror H)) d1 S1) as (d' & E & S' & D' & T' & C').
    exists d'. split; [exact E|]. split; [exact S'|]. split; [intros a La; rewrite D' by auto; auto|]. split.
    + intros a b Hab. destruct (T1 a b Hab) as (A1 & B1 & F1), (T' a b Hab) as (A' & B' & F'). split; [lra|]. split.
      * intros u v s p q C Hs. apply closer_cons in C as [C|C]; [|eauto]. specialize (B1 _ _ _ _ _ C Hs). lra.
      * destruct F' as [F'|(u & v & C & Hs)]; [|right; exists u, v; split; [apply closer_cons; now right|exact Hs]].
        rewrite F'. destruct F1 as [F1|(u & v & C & Hs)]; [now left|right; exists u, v; split; [apply closer_cons; now left|exact Hs]].
    + rewrite C', C1. split.
      * intros [[H|(a & b & u & v & H & C & L)]|(a & b & u & v & H & C & L)]; [now left|right..]; exists a, b, u, v; (split; [exact H|]);
          (split; [apply closer_cons; auto|exact L]).
      * intros [H|(a & b & u & v & H & C & L)]; [auto|]. apply closer_cons in C as [C|C]; [left; right|right]; exists a, b, u, v; auto.
Qed.
Lemma closer_facing vs a b x y : visits_all (length ps) vs -> (b < a < n)%nat ->
  closer al ps vs a b x y <-> cl_get al (Z.of_nat a) (Z.of_nat b) = Ok false /\ facing ps (Z.of_nat a) (Z.of_nat b) x y.
Proof.
  intros [P V] Hab. unfold closer, facing. rewrite Z.max_l, Z.min_r by lia. split.
  - intros (G & A & B & i & j & K & [[X Y]|[X Y]]); apply nth_error_In in X, Y; auto 8.
  - intros (G & Ix & Iy & A & B). repeat (split; [assumption|]).
    apply In_nth_error in Ix as [i X], Iy as [j Y].
    assert (i <> j) by (intros ->; rewrite X in Y; injection Y as <-; lia).
    assert (Li : (i < length ps)%nat) by (apply nth_error_Some; congruence).
    assert (Lj : (j < length ps)%nat) by (apply nth_error_Some; congruence).
    destruct (V i j Li Lj) as [K|K]; [auto|exists i, j; auto|exists j, i; auto].
Qed.
End Visit.

(** ** The whole check *)
Lemma create_shaped n : shaped n (dist_create n).
Proof. split; [reflexivity|apply repeat_length]. Qed.
Lemma put_shaped n d a b e d' : shaped n d -> put_ent d a b e = Ok d' -> shaped n d'.
Proof.
  intros [N L] E. unfold put_ent in E. destruct (dist_idx _ a b) as [r| | |]; try discriminate. cbn [bind] in E.
  destruct (Nat.ltb r _); [|discriminate]. injection E as <-. split; [exact N|]. cbn. rewrite <- L.
  clear. revert r. induction (cd_tab d) as [|x t IH]; intros [|r]; cbn; auto.
Qed.
Lemma callback_shaped near contacts n al a b d d' : shaped n d -> dist_callback near contacts al a b d = Ok d' -> shaped n d'.
Proof.
  intros Sh E. unfold dist_callback in E. destruct (p_id a =? p_id b)%Z; [now injection E as <-|].
  destruct (if (p_id a <? p_id b)%Z then (b, a) else (a, b)) as [o1 o2].
  destruct (cl_get al (p_id o1) (p_id o2)) as [[|]| | |]; cbn [bind] in E; try discriminate; [now injection E as <-|].
  destruct (get_ent d (p_id o1) (p_id o2)) as [e| | |]; cbn [bind] in E; try discriminate.
  destruct (near o1 o2) as [[m p0] p1].
  destruct (if Rle_dec m 0 then _ else _) as [[[s q0] q1] c].
  destruct (Rlt_dec s (e_dist e)); [eapply put_shaped; [|exact E]; exact Sh|injection E as <-; exact Sh].
Qed.
Lemma visit_shaped near contacts n al ps vs : forall d d', shaped n d -> dist_visit near contacts al ps vs d = Ok d' -> shaped n d'.
Proof.
  induction vs as [|[i j] r IH]; intros d d' Sh E; cbn [dist_visit] in E; [now injection E as <-|].
  destruct (nth_error ps i); [|discriminate]. destruct (nth_error ps j); [|discriminate]. cbn [from bind] in E.
  destruct (dist_callback _ _ _ _ _ d) as [d1| | |] eqn:E1; try discriminate. cbn [bind] in E. eapply IH; [|exact E]. eapply callback_shaped; eauto.
Qed.
Lemma made_shaped n d : dist_made n d -> shaped n d.
Proof.
  induction 1 as [|near contacts al objs TF vs d c d' M IH E]; [apply create_shaped|].
  unfold dist_check in E. destruct (place_all _ objs) as [ps| | |]; try discriminate. cbn [bind] in E.
  destruct (reset_ok n d IH) as (d0 & E0 & S0 & _). rewrite E0 in E. cbn [bind] in E.
  destruct (dist_visit near contacts al ps vs d0) as [d1| | |] eqn:E1; try discriminate. cbn [bind] in E. injection E as _ <-.
  eapply visit_shaped; eauto.
Qed.
Lemma of_valid n z : valid n z -> exists a, z = Z.of_nat a /\ (a < n)%nat.
Proof. unfold valid. intros. exists (Z.to_nat z). lia. Qed.
Lemma get_dist_sym d a b : get_dist d a b = get_dist d b a.
Proof. unfold get_dist. destruct (Z.ltb_spec a b), (Z.ltb_spec b a); try lia; auto. assert (a = b) as -> by lia. reflexivity. Qed.

Lemma c95_check near contacts n al objs TF ps vs d : made n al -> (forall o, In o objs -> valid n (o_id o)) ->
  place_all (tf_fk TF) objs = Ok ps -> visits_all (length ps) vs -> dist_made n d ->
  exists c d', dist_check near contacts al objs TF vs d = Ok (c, d') /\
  (c = true <-> exists a b x y, a <> b /\ cl_get al a b = Ok false /\ facing ps a b x y /\ fst (fst (near x y)) <= 0) /\
  (forall a, valid n a -> get_dist d' a a = Ok 0) /\
  forall a b, valid n a -> valid n b -> a <> b -> exists m, get_dist d' a b = Ok m /\ m <= dbl_max /\
    (cl_get al a b = Ok true -> m = dbl_max) /\
    (cl_get al a b = Ok false -> forall x y s p q, facing ps a b x y -> separation near contacts x y s p q -> m <= s) /\
    (m < dbl_max -> exists x y p q, facing ps a b x y /\ separation near contacts x y m p q /\
       get_points d' (Z.max a b) (Z.min a b) = Ok (m, p, q) /\ get_points d' (Z.min a b) (Z.max a b) = Ok (m, q, p)).
Proof.
  intros Ma Vo Ep V Md. apply made_shaped in Md. unfold dist_check. rewrite Ep. cbn [bind].
  assert (Vp : forall p, In p ps -> valid n (p_id p)).
  { intros p K. apply (in_map p_id) in K. rewrite (place_ids _ _ _ Ep) in K. apply in_map_iff in K as (o & <- & K). auto. }
  destruct (reset_ok n d Md) as (d0 & -> & S0 & C0 & D0 & T0). cbn [bind].
  destruct (visit_ok near contacts n al ps (made_wf _ _ Ma) Vp vs (proj1 V) d0 S0) as (d1 & -> & S1 & D1 & T1 & C1). cbn [bind].
  exists (cd_coll d1), d1. split; [reflexivity|].
  assert (Fs : forall a b x y, facing ps a b x y -> facing ps b a x y).
  { unfold facing. intros a b x y. now rewrite (Z.max_comm b a), (Z.min_comm b a). }
  assert (Gs : forall a b, valid n a -> valid n b -> cl_get al a b = cl_get al b a).
  { intros. destruct (c56_sym n al a b Ma) as (u & -> & ->); auto. }
  split; [|split].
  - rewrite C1, C0. split.
    + intros [H|(a & b & x & y & H & C & L)]; [discriminate|]. apply (closer_facing n) in C as [G F]; auto.
      exists (Z.of_nat a), (Z.of_nat b), x, y. repeat split; auto; try lia. exact (proj1 F). exact (proj1 (proj2 F)). exact (proj1 (proj2 (proj2 F))). exact (proj2 (proj2 (proj2 F))).
    + intros (a & b & x & y & Ne & G & F & L). right.
      assert (Vab : valid n (Z.max a b) /\ valid n (Z.min a b)) by (destruct F as (Ix & Iy & <- & <-); auto).
      destruct (of_valid n (Z.max a b)) as (a' & Ea & La); [tauto|]. destruct (of_valid n (Z.min a b)) as (b' & Eb & Lb); [tauto|].
      exists a', b', x, y. assert (b' < a' < n)%nat by lia. split; [auto|]. split; [|exact L].
      apply (closer_facing n); auto. rewrite <- Ea, <- Eb. destruct (Z.max_spec a b) as [[H1 ->]|[H1 ->]].
      * rewrite Z.min_l by lia. split; [|auto]. rewrite Gs; [exact G|..]; unfold valid in *; lia.
      * rewrite Z.min_r by lia. auto.
  - intros a Va. destruct (of_valid n a Va) as (a' & -> & La). unfold get_dist. rewrite Z.ltb_irrefl, (get_at n) by (auto; lia). cbn [bind].
    now rewrite D1, D0 by auto.
  - intros a b Va Vb Ne.
    assert (Main : forall a b, (b < a < n)%nat -> exists m, get_dist d1 (Z.of_nat a) (Z.of_nat b) = Ok m /\ m <= dbl_max /\
      (cl_get al (Z.of_nat a) (Z.of_nat b) = Ok true -> m = dbl_max) /\
      (cl_get al (Z.of_nat a) (Z.of_nat b) = Ok false -> forall x y s p q, facing ps (Z.of_nat a) (Z.of_nat b) x y -> separation near contacts x y s p q -> m <= s) /\
      (m < dbl_max -> exists x y p q, facing ps (Z.of_nat a) (Z.of_nat b) x y /\ separation near contacts x y m p q /\
        get_points d1 (Z.of_nat a) (Z.of_nat b) = Ok (m, p, q) /\ get_points d1 (Z.of_nat b) (Z.of_nat a) = Ok (m, q, p))).
    { clear a b Va Vb Ne. intros a b Hab. destruct (T1 a b Hab) as (A & B & F). pose proof (T0 a b Hab) as T0'.
      exists (e_dist (at_ d1 a b)). split; [|split; [lra|split; [|split]]].
      - unfold get_dist. destruct (Z.ltb_spec (Z.of_nat a) (Z.of_nat b)); [lia|]. now rewrite (get_at n) by (auto; lia).
      - intros G. destruct F as [-> |(x & y & C & _)]; [exact T0'|]. destruct C as (G' & _). congruence.
      - intros G x y s p q Fc Hs. eapply B; [|exact Hs]. apply (closer_facing n); auto.
      - intros L. destruct F as [F|(x & y & C & Hs)]; [rewrite F in L; lra|].
        apply (closer_facing n) in C as [G Fc]; auto. exists x, y, (e_p0 (at_ d1 a b)), (e_p1 (at_ d1 a b)). split; [exact Fc|]. split; [exact Hs|].
        unfold get_points. destruct (Z.ltb_spec (Z.of_nat b) (Z.of_nat a)); [|lia]. destruct (Z.ltb_spec (Z.of_nat a) (Z.of_nat b)); [lia|].
        rewrite (get_at n) by (auto; lia). cbn [bind]. auto. }
    destruct (of_valid n a Va) as (a' & -> & La), (of_valid n b Vb) as (b' & -> & Lb).
    destruct (Nat.lt_ge_cases b' a') as [H|H].
    + rewrite Z.max_l, Z.min_r by lia. apply Main. lia.
    + rewrite Z.max_r, Z.min_l by lia. rewrite get_dist_sym, Gs by auto. destruct (Main b' a') as (m & M1 & M2 & M3 & M4 & M5); [lia|].
      exists m. split; [exact M1|]. split; [exact M2|]. split; [exact M3|]. split; [intros G x y s p q Fc; apply M4; auto|].
      intros L. destruct (M5 L) as (x & y & p & q & F & R). exists x, y, p, q. auto.
Qed.

(** ** Queries on a table *)
Lemma get_total n d a b : dist_made n d -> valid n a -> valid n b -> exists m p q, get_dist d a b = Ok m /\ get_dist d b a = Ok m /\
  get_points d a b = Ok (m, p, q) /\ (a <> b -> get_points d b a = Ok (m, q, p)).
Proof.
  intros M Va Vb. apply made_shaped in M. rewrite (get_dist_sym d b a).
  destruct (of_valid n a Va) as (a' & -> & La), (of_valid n b Vb) as (b' & -> & Lb). unfold get_dist, get_points.
  destruct (Z.ltb_spec (Z.of_nat a') (Z.of_nat b')), (Z.ltb_spec (Z.of_nat b') (Z.of_nat a')); try lia.
  - rewrite (get_at n) by (auto; lia). cbn [bind]. do 3 eexists. repeat (split; [reflexivity|]). reflexivity.
  - rewrite (get_at n) by (auto; lia). cbn [bind]. do 3 eexists. repeat (split; [reflexivity|]). reflexivity.
  - assert (a' = b') as -> by lia. rewrite (get_at n) by (auto; lia). cbn [bind]. do 3 eexists. repeat (split; [reflexivity|]). congruence.
Qed.
Lemma min_loop_ok n d z : dist_made n d -> valid n z -> forall ids m best, (forall i, In i ids -> (i < n)%nat) ->
  exists m' best', min_loop d z ids m best = Ok (m', best') /\ m' <= m /\
    (forall i x, In i ids -> Z.of_nat i <> z -> get_dist d z (Z.of_nat i) = Ok x -> m' <= x) /\
    (m' = m /\ best' = best \/ exists i p q, best' = Some (Z.of_nat i, p, q) /\ In i ids /\ Z.of_nat i <> z /\
        get_dist d z (Z.of_nat i) = Ok m' /\ get_points d z (Z.of_nat i) = Ok (m', p, q)).
Proof.
  intros M Vz. induction ids as [|i r IH]; intros m best Hi.
  - exists m, best. split; [reflexivity|]. split; [lra|]. split; [intros i x []|now left].
  - cbn [min_loop]. destruct (Z.eqb_spec z (Z.of_nat i)) as [E|Ne].
    + destruct (IH m best) as (m' & b' & E' & A & B & C); [intros; apply Hi; now right|]. exists m', b'. split; [exact E'|]. split; [exact A|]. split.
      * intros k x [<-|K] Nk; [congruence|eauto].
      * destruct C as [C|(k & p & q & -> & K & C)]; [now left|right; exists k, p, q; split; [reflexivity|split; [now right|exact C]]].
    + assert (Vi : valid n (Z.of_nat i)) by (specialize (Hi i (or_introl eq_refl)); unfold valid; lia).
      destruct (get_total n d z (Z.of_nat i) M Vz Vi) as (x & p & q & G1 & _ & G2 & _). rewrite G1. cbn [bind].
      destruct (Rlt_dec x m) as [L|L]; [rewrite G2; cbn [bind]|].
      * destruct (IH x (Some (Z.of_nat i, p, q))) as (m' & b' & E' & A & B & C); [intros; apply Hi; now right|]. exists m', b'. split; [exact E'|]. split; [lra|]. split.
        -- intros k y [<-|K] Nk G; [|eauto]. rewrite G1 in G. injection G as <-. exact A.
        -- right. destruct C as [[-> ->]|(k & p' & q' & -> & K & C)]; [exists i, p, q; repeat split; auto; now left|].
           exists k, p', q'. split; [reflexivity|split; [now right|exact C]].
      * destruct (IH m best) as (m' & b' & E' & A & B & C); [intros; apply Hi; now right|]. exists m', b'. split; [exact E'|]. split; [lra|]. split.
        -- intros k y [<-|K] Nk G; [|eauto]. rewrite G1 in G. injection G as <-. lra.
        -- destruct C as [C|(k & p' & q' & -> & K & C)]; [now left|right; exists k, p', q'; split; [reflexivity|split; [now right|exact C]]].
Qed.
Lemma c95_min n d z : dist_made n d -> valid n z -> exists m best, get_min_dist d z = Ok (m, best) /\ m <= dbl_max /\
  (forall w x, valid n w -> w <> z -> get_dist d z w = Ok x -> m <= x) /\
  match best with
  | Some (w, p, q) => valid n w /\ w <> z /\ get_points d z w = Ok (m, p, q)
  | None => m = dbl_max
  end.
Proof.
  intros M Vz. unfold get_min_dist. pose proof (made_shaped _ _ M) as [-> _].
  destruct (min_loop_ok n d z M Vz (seq 0 n) dbl_max None) as (m & best & E & A & B & C); [intros i K; apply in_seq in K; lia|].
  exists m, best. split; [exact E|]. split; [exact A|]. split.
  - intros w x Vw Nw G. destruct (of_valid n w Vw) as (i & -> & Li). apply (B i x); auto. apply in_seq. lia.
  - destruct C as [[-> ->]|(i & p & q & -> & K & Ni & G1 & G2)]; [reflexivity|]. apply in_seq in K. split; [unfold valid; lia|auto].
Qed.
