(** Arrays and loops, quadrilaterals, the box and the grid. *)
From Coq Require Import Reals ZArith List Bool Arith Lia Lra Psatz.
From Verif Require Import TfModel GlModel GlSpec.
Import ListNotations.
Open Scope R_scope.

(** ** Arrays and loops *)
Lemma put_ok {A} cap (x : A) l : (length l < cap)%nat -> put cap x l = Some (l ++ [x]).
Proof. intros H; unfold put. apply Nat.ltb_lt in H. now rewrite H. Qed.
Lemma puts_ok {A} cap (xs l : list A) : (length l + length xs <= cap)%nat -> puts cap xs l = Some (l ++ xs).
Proof.
  revert l; induction xs as [|x r IH]; intros l H; cbn in *.
  - now rewrite app_nil_r.
  - rewrite put_ok by lia. rewrite IH by (rewrite app_length; cbn; lia). now rewrite <- app_assoc.
Qed.
Lemma loop_range {St : Type} (f : nat -> St -> option St) (P : nat -> St -> Prop) a b s :
  (a <= b)%nat -> P a s ->
  (forall i s, (a <= i < b)%nat -> P i s -> exists s', f i s = Some s' /\ P (i + 1)%nat s') ->
  exists s', loop f (range a b) s = Some s' /\ P b s'.
Proof.
  unfold range. intros Hab H0 Hs. remember (b - a)%nat as n eqn:En. revert a s Hab H0 Hs En.
  induction n as [|n IH]; intros a s Hab H0 Hs En; cbn.
  - exists s; split; auto. now replace b with a by lia.
  - destruct (Hs a s ltac:(lia) H0) as (s' & E & H1). rewrite E.
    replace (S a) with (a + 1)%nat by lia.
    apply IH; auto; try lia. intros i s0 Hi; apply Hs; lia.
Qed.
Lemma range_snoc a i : (a <= i)%nat -> seq a (i + 1 - a) = seq a (i - a) ++ [i].
Proof.
  intros H. replace (i + 1 - a)%nat with (S (i - a)) by lia. rewrite seq_S. do 2 f_equal. lia.
Qed.
Lemma take_all {A} (l : list A) : take (length l) l = Some l.
Proof. unfold take. rewrite Nat.leb_refl, firstn_all. reflexivity. Qed.
Lemma tri_mesh_ok v n ix :
  length n = length v -> Nat.modulo (length ix) 3 = 0%nat ->
  tri_mesh (length v) v (Some n) (length ix / 3) (Some ix) = Some (mkD v (Some n) (Some ix)).
Proof.
  intros Hn Hi. unfold tri_mesh.
  pose proof (Nat.div_mod (length ix) 3 ltac:(lia)) as D.
  replace (3 * (length ix / 3))%nat with (length ix) by lia.
  rewrite take_all, <- Hn, !take_all. reflexivity.
Qed.

(** ** Triangles of a mesh *)
Lemma triples_app6 (a b c d e f : nat) r : triples ([a; b; c; d; e; f] ++ r) = (a, b, c) :: (d, e, f) :: triples r.
Proof. reflexivity. Qed.
Lemma triples_app l r : Nat.modulo (length l) 3 = 0%nat -> triples (l ++ r) = triples l ++ triples r.
Proof.
  intros H. assert (exists n, length l = 3 * n)%nat as [n En].
  { exists (length l / 3)%nat. pose proof (Nat.div_mod (length l) 3 ltac:(lia)). lia. }
  clear H; revert l En; induction n as [|n IH]; intros l En.
  - destruct l; [reflexivity|cbn in En; lia].
  - destruct l as [|a [|b [|c l]]]; cbn in En; try lia. cbn. f_equal. apply IH. lia.
Qed.
Lemma triples_flat {A} (f : A -> list nat) (g : A -> list (nat * nat * nat)) l :
  (forall i r, triples (f i ++ r) = g i ++ triples r) -> triples (flat_map f l) = flat_map g l.
Proof. intros H; induction l as [|x l IH]; cbn; [reflexivity|]. now rewrite H, IH. Qed.

(** ** Points of triangles *)
Lemma V3_eq a b : vx a = vx b -> vy a = vy b -> vz a = vz b -> a = b.
Proof. destruct a, b; cbn; congruence. Qed.
Lemma in_tri_perm1 a b c p : in_tri a b c p -> in_tri a c b p.
Proof.
  intros (u & v & w & ? & ? & ? & ? & ->). exists u, w, v. repeat split; try lra.
  apply V3_eq; cbn; ring.
Qed.
Lemma in_tri_perm2 a b c p : in_tri a b c p -> in_tri b c a p.
Proof.
  intros (u & v & w & ? & ? & ? & ? & ->). exists v, w, u. repeat split; try lra.
  apply V3_eq; cbn; ring.
Qed.
(** A rectangle with centre c and half sides u, v. *)
Definition in_rect (c u v p : V3) : Prop :=
  exists s t, -1 <= s <= 1 /\ -1 <= t <= 1 /\ p = vadd c (vadd (vscale s u) (vscale t v)).
Lemma rect_split c u v p :
  let pp := vadd c (vadd u v) in let pm := vadd c (vsub u v) in
  let mm := vsub c (vadd u v) in let mp := vsub c (vsub u v) in
  (in_tri pp pm mm p \/ in_tri pp mp mm p) <-> in_rect c u v p.
Proof.
  cbv zeta. split.
  - intros [(x & y & z & ? & ? & ? & E & ->)|(x & y & z & ? & ? & ? & E & ->)].
    + exists (x + y - z), (x - y - z). repeat split; try lra.
      replace x with (1 - y - z) by lra. apply V3_eq; cbn; ring.
    + exists (x - y - z), (x + y - z). repeat split; try lra.
      replace x with (1 - y - z) by lra. apply V3_eq; cbn; ring.
  - intros (s & t & Hs & Ht & ->). destruct (Rle_dec t s).
    + left. exists ((1 + t) / 2), ((s - t) / 2), ((1 - s) / 2). repeat split; try lra.
      apply V3_eq; cbn; field.
    + right. exists ((1 + s) / 2), ((t - s) / 2), ((1 - t) / 2). repeat split; try lra.
      apply V3_eq; cbn; field.
Qed.

(** s*d over s in [-1,1] *)
Lemma scaled d x : 0 <= d -> ((exists s, -1 <= s <= 1 /\ x = s * d) <-> Rabs x <= d).
Proof.
  intros Hd; split.
  - intros (s & Hs & ->). rewrite Rabs_mult, (Rabs_right d) by lra.
    assert (Rabs s <= 1) by (apply Rabs_le; lra). pose proof (Rabs_pos s). nra.
  - intros H. destruct (Req_dec d 0) as [->|Hn].
    + exists 0. split; [lra|]. pose proof (Rabs_pos x). assert (Rabs x = 0) by lra.
      destruct (Req_dec x 0); [lra|]. pose proof (Rabs_no_R0 x). lra.
    + exists (x / d). split; [|field; lra].
      assert (- d <= x <= d) by (revert H; unfold Rabs; destruct Rcase_abs; lra).
      split.
      * apply (Rmult_le_reg_r d); [lra|]. unfold Rdiv. rewrite Rmult_assoc, Rinv_l by lra. lra.
      * apply (Rmult_le_reg_r d); [lra|]. unfold Rdiv. rewrite Rmult_assoc, Rinv_l by lra. lra.
Qed.

(** ** Box *)
Definition box_values (a b c : R) : list V3 :=
  let f (g : R -> R -> R -> V3) k := [g 1 1 k; g 1 (-1) k; g (-1) (-1) k; g (-1) 1 k] in
  let z i j k := mkV (i * a) (j * b) (k * c) in
  let x i j k := mkV (k * a) (i * b) (j * c) in
  let y i j k := mkV (i * a) (k * b) (j * c) in
  f z 1 ++ f z (-1) ++ f x 1 ++ f x (-1) ++ f y 1 ++ f y (-1).
Definition box_normals : list V3 :=
  repeat (mkV 0 0 1) 4 ++ repeat (mkV 0 0 (-1)) 4 ++ repeat (mkV 1 0 0) 4 ++ repeat (mkV (-1) 0 0) 4 ++
  repeat (mkV 0 1 0) 4 ++ repeat (mkV 0 (-1) 0) 4.
Definition box_ix : list nat := flat_map (fun m => [4*m; 4*m+1; 4*m+2; 4*m; 4*m+3; 4*m+2]%nat) (seq 0 6).
Lemma init_box_eq x y z : init_box x y z = Some (mkD (box_values (x/2) (y/2) (z/2)) (Some box_normals) (Some box_ix)).
Proof. reflexivity. Qed.
Lemma box_wf x y z M : init_box x y z = Some M -> well_formed M.
Proof.
  rewrite init_box_eq. intros [= <-]. repeat split.
  - cbn. repeat (apply Forall_cons; [lia|]). apply Forall_nil.
  - cbn. repeat (apply Forall_cons; [unfold vdot; cbn; ring|]). apply Forall_nil.
Qed.
Lemma in_rect_or a b c d p (Q : Prop) : (in_tri a b c p \/ in_tri a d c p \/ Q) <-> ((in_tri a b c p \/ in_tri a d c p) \/ Q).
Proof. tauto. Qed.
Lemma box_faces x y z M p : init_box x y z = Some M ->
  drawn M p <->
  exists m a b c d, (m < 6)%nat /\ nth_error (d_v M) (4*m) = Some a /\ nth_error (d_v M) (4*m+1) = Some b /\
    nth_error (d_v M) (4*m+2) = Some c /\ nth_error (d_v M) (4*m+3) = Some d /\ (in_tri a b c p \/ in_tri a d c p).
Proof.
  rewrite init_box_eq. intros [= <-]. unfold drawn, triangles. cbn [indices d_i d_v].
  assert (T : triples box_ix = flat_map (fun m => [(4*m,4*m+1,4*m+2); (4*m,4*m+3,4*m+2)]%nat) (seq 0 6)) by reflexivity.
  unfold indices; cbn [d_i]. rewrite T. set (v := box_values _ _ _).
  assert (Lv : length v = 24%nat) by reflexivity.
  assert (G : forall i, (i < 24)%nat -> exists a, nth_error v i = Some a).
  { intros i Hi. destruct (nth_error v i) eqn:E; eauto. apply nth_error_None in E. lia. }
  clearbody v. split.
  - intros (i & j & k & a & b & c & Hin & Ha & Hb & Hc & Ht).
    apply in_flat_map in Hin. destruct Hin as (m & Hm & Hi). apply in_seq in Hm.
    destruct (G (4*m+1)%nat ltac:(lia)) as (b' & Hb'). destruct (G (4*m+3)%nat ltac:(lia)) as (d' & Hd').
    cbn [In] in Hi. destruct Hi as [E|[E|[]]]; injection E as <- <- <-.
    + exists m, a, b, c, d'. repeat split; auto; lia.
    + exists m, a, b', c, b. repeat split; auto; lia.
  - intros (m & a & b & c & d & Hm & Ha & Hb & Hc & Hd & [Ht|Ht]).
    + exists (4*m)%nat, (4*m+1)%nat, (4*m+2)%nat, a, b, c. repeat split; auto.
      apply in_flat_map. exists m. split; [apply in_seq; lia|cbn; auto].
    + exists (4*m)%nat, (4*m+3)%nat, (4*m+2)%nat, a, d, c. repeat split; auto.
      apply in_flat_map. exists m. split; [apply in_seq; lia|cbn [In]; auto].
Qed.
Lemma face_rect a b c d cc u v p :
  a = vadd cc (vadd u v) -> b = vadd cc (vsub u v) -> c = vsub cc (vadd u v) -> d = vsub cc (vsub u v) ->
  (in_tri a b c p \/ in_tri a d c p) <-> in_rect cc u v p.
Proof. intros -> -> -> ->. apply rect_split. Qed.
Ltac six m := destruct m as [|[|[|[|[|[|m]]]]]]; [..|exfalso; lia].
Lemma box_drawn x y z M p : 0 <= x -> 0 <= y -> 0 <= z -> init_box x y z = Some M ->
  drawn M p <-> box_surface x y z p.
Proof.
  intros Hx Hy Hz E. rewrite (box_faces _ _ _ _ _ E). rewrite init_box_eq in E. injection E as <-.
  cbn [d_v]. set (a := x/2). set (b := y/2). set (c := z/2).
  assert (0 <= a /\ 0 <= b /\ 0 <= c) as (Ha & Hb & Hc) by (unfold a, b, c; lra).
  unfold box_surface, in_box. fold a b c. clearbody a b c. clear Hx Hy Hz. split.
  - intros (m & A & B & C & D & Hm & HA & HB & HC & HD & Ht).
    six m; injection HA as <-; injection HB as <-; injection HC as <-; injection HD as <-.
    + apply (face_rect _ _ _ _ (mkV 0 0 c) (mkV a 0 0) (mkV 0 b 0)) in Ht; [|apply V3_eq; cbn; ring..].
      destruct Ht as (s & t & Hs & Ht & ->); cbn.
      assert (Rabs (s*a) <= a) by (apply scaled; eauto). assert (Rabs (t*b) <= b) by (apply scaled; eauto).
      replace (0 + (s * a + t * 0)) with (s*a) by ring. replace (0 + (s * 0 + t * b)) with (t*b) by ring.
      replace (c + (s * 0 + t * 0)) with c by ring. rewrite (Rabs_right c) by lra. repeat split; lra.
    + apply (face_rect _ _ _ _ (mkV 0 0 (-c)) (mkV a 0 0) (mkV 0 b 0)) in Ht; [|apply V3_eq; cbn; ring..].
      destruct Ht as (s & t & Hs & Ht & ->); cbn.
      assert (Rabs (s*a) <= a) by (apply scaled; eauto). assert (Rabs (t*b) <= b) by (apply scaled; eauto).
      replace (0 + (s * a + t * 0)) with (s*a) by ring. replace (0 + (s * 0 + t * b)) with (t*b) by ring.
      replace (-c + (s * 0 + t * 0)) with (-c) by ring. rewrite Rabs_Ropp, (Rabs_right c) by lra. repeat split; lra.
    + apply (face_rect _ _ _ _ (mkV a 0 0) (mkV 0 b 0) (mkV 0 0 c)) in Ht; [|apply V3_eq; cbn; ring..].
      destruct Ht as (s & t & Hs & Ht & ->); cbn.
      assert (Rabs (s*b) <= b) by (apply scaled; eauto). assert (Rabs (t*c) <= c) by (apply scaled; eauto).
      replace (0 + (s * b + t * 0)) with (s*b) by ring. replace (0 + (s * 0 + t * c)) with (t*c) by ring.
      replace (a + (s * 0 + t * 0)) with a by ring. rewrite (Rabs_right a) by lra. repeat split; lra.
    + apply (face_rect _ _ _ _ (mkV (-a) 0 0) (mkV 0 b 0) (mkV 0 0 c)) in Ht; [|apply V3_eq; cbn; ring..].
      destruct Ht as (s & t & Hs & Ht & ->); cbn.
      assert (Rabs (s*b) <= b) by (apply scaled; eauto). assert (Rabs (t*c) <= c) by (apply scaled; eauto).
      replace (0 + (s * b + t * 0)) with (s*b) by ring. replace (0 + (s * 0 + t * c)) with (t*c) by ring.
      replace (-a + (s * 0 + t * 0)) with (-a) by ring. rewrite Rabs_Ropp, (Rabs_right a) by lra. repeat split; lra.
    + apply (face_rect _ _ _ _ (mkV 0 b 0) (mkV a 0 0) (mkV 0 0 c)) in Ht; [|apply V3_eq; cbn; ring..].
      destruct Ht as (s & t & Hs & Ht & ->); cbn.
      assert (Rabs (s*a) <= a) by (apply scaled; eauto). assert (Rabs (t*c) <= c) by (apply scaled; eauto).
      replace (0 + (s * a + t * 0)) with (s*a) by ring. replace (0 + (s * 0 + t * c)) with (t*c) by ring.
      replace (b + (s * 0 + t * 0)) with b by ring. rewrite (Rabs_right b) by lra. repeat split; lra.
    + apply (face_rect _ _ _ _ (mkV 0 (-b) 0) (mkV a 0 0) (mkV 0 0 c)) in Ht; [|apply V3_eq; cbn; ring..].
      destruct Ht as (s & t & Hs & Ht & ->); cbn.
      assert (Rabs (s*a) <= a) by (apply scaled; eauto). assert (Rabs (t*c) <= c) by (apply scaled; eauto).
      replace (0 + (s * a + t * 0)) with (s*a) by ring. replace (0 + (s * 0 + t * c)) with (t*c) by ring.
      replace (-b + (s * 0 + t * 0)) with (-b) by ring. rewrite Rabs_Ropp, (Rabs_right b) by lra. repeat split; lra.
  - intros ((Px & Py & Pz) & Q).
    apply scaled in Px; auto. apply scaled in Py; auto. apply scaled in Pz; auto.
    destruct Px as (sx & Hsx & Ex), Py as (sy & Hsy & Ey), Pz as (sz & Hsz & Ez).
    assert (W : forall t d, 0 <= d -> Rabs t = d -> t = d \/ t = -d).
    { intros t d Hd. unfold Rabs; destruct Rcase_abs; lra. }
    assert (Z : forall m cc u v s t, (m < 6)%nat ->
      nth_error (box_values a b c) (4*m) = Some (vadd cc (vadd u v)) ->
      nth_error (box_values a b c) (4*m+1) = Some (vadd cc (vsub u v)) ->
      nth_error (box_values a b c) (4*m+2) = Some (vsub cc (vadd u v)) ->
      nth_error (box_values a b c) (4*m+3) = Some (vsub cc (vsub u v)) ->
      -1 <= s <= 1 -> -1 <= t <= 1 -> p = vadd cc (vadd (vscale s u) (vscale t v)) ->
      exists m a0 b0 c0 d : _, (m < 6)%nat /\ nth_error (box_values a b c) (4*m) = Some a0 /\
        nth_error (box_values a b c) (4*m+1) = Some b0 /\ nth_error (box_values a b c) (4*m+2) = Some c0 /\
        nth_error (box_values a b c) (4*m+3) = Some d /\ (in_tri a0 b0 c0 p \/ in_tri a0 d c0 p)).
    { intros m cc u v s t Hm A B C D Hs Ht Ep. exists m. do 4 eexists. repeat (split; [eassumption|]).
      apply rect_split. exists s, t. auto. }
    destruct Q as [Q|[Q|Q]]; apply W in Q; auto; destruct Q as [Q|Q].
    + apply (Z 2%nat (mkV a 0 0) (mkV 0 b 0) (mkV 0 0 c) sy sz); try lia; auto; cbn;
        try (f_equal; apply V3_eq; cbn; ring). apply V3_eq; cbn; lra.
    + apply (Z 3%nat (mkV (-a) 0 0) (mkV 0 b 0) (mkV 0 0 c) sy sz); try lia; auto; cbn;
        try (f_equal; apply V3_eq; cbn; ring). apply V3_eq; cbn; lra.
    + apply (Z 4%nat (mkV 0 b 0) (mkV a 0 0) (mkV 0 0 c) sx sz); try lia; auto; cbn;
        try (f_equal; apply V3_eq; cbn; ring). apply V3_eq; cbn; lra.
    + apply (Z 5%nat (mkV 0 (-b) 0) (mkV a 0 0) (mkV 0 0 c) sx sz); try lia; auto; cbn;
        try (f_equal; apply V3_eq; cbn; ring). apply V3_eq; cbn; lra.
    + apply (Z 0%nat (mkV 0 0 c) (mkV a 0 0) (mkV 0 b 0) sx sy); try lia; auto; cbn;
        try (f_equal; apply V3_eq; cbn; ring). apply V3_eq; cbn; lra.
    + apply (Z 1%nat (mkV 0 0 (-c)) (mkV a 0 0) (mkV 0 b 0) sx sy); try lia; auto; cbn;
        try (f_equal; apply V3_eq; cbn; ring). apply V3_eq; cbn; lra.
Qed.
(** Normals: one per triangle, and the box lies behind the triangle's plane. *)
Lemma box_outward x y z M i j k a b c na nb nc :
  0 <= x -> 0 <= y -> 0 <= z -> init_box x y z = Some M -> In (i, j, k) (triangles M) ->
  at_vertex M i a na -> at_vertex M j b nb -> at_vertex M k c nc ->
  nb = na /\ nc = na /\ vdot na b = vdot na a /\ vdot na c = vdot na a /\
  forall q, in_box x y z q -> vdot na q <= vdot na a.
Proof.
  intros Hx Hy Hz E. rewrite init_box_eq in E. injection E as <-.
  intros Hin [Ha (la & El & Hna)] [Hb (lb & Elb & Hnb)] [Hc (lc & Elc & Hnc)].
  cbn [d_n d_v] in *. injection El as <-; injection Elb as <-; injection Elc as <-.
  assert (R : forall q, in_box x y z q -> (- (x/2) <= vx q <= x/2) /\ (- (y/2) <= vy q <= y/2) /\ (- (z/2) <= vz q <= z/2)).
  { intros q (A & B & C). revert A B C. unfold Rabs; repeat destruct Rcase_abs; lra. }
  unfold triangles, indices in Hin; cbn [d_i] in Hin. vm_compute in Hin.
  repeat match type of Hin with _ \/ _ => destruct Hin as [Hin|Hin] | False => destruct Hin end;
    injection Hin as <- <- <-; cbn in Ha, Hb, Hc, Hna, Hnb, Hnc;
    injection Ha as <-; injection Hb as <-; injection Hc as <-;
    injection Hna as <-; injection Hnb as <-; injection Hnc as <-; unfold vdot; cbn;
    (split; [reflexivity|split; [reflexivity|split; [ring|split; [ring|]]]]);
    intros q Hq; apply R in Hq; lra.
Qed.
