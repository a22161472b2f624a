(** C124 mean rotation, C125 medians and relative translation, C126 plane fit. *)
From Coq Require Import Reals Lra Psatz List Permutation Arith Lia.
From Verif Require Import HeapModel TfModel AvgModel AvgSpec AvgProofs.
Import ListNotations.
Open Scope R_scope.

(** C124: for unit quaternions and weights that are not negative (equal weights
    when none are given), the result of aa_tf_quat_davenport is a unit quaternion
    and no rotation has a smaller weighted sum of squared distances between
    rotation matrices. *)
Theorem C124_mean_rotation : forall geev4 w qq,
  (forall M, (forall i j, M i j = M j i) -> geev_ok M (geev4 M)) ->
  let ws := match w with Some l => l | None => repeat (1 / INR (length qq)) (length qq) end in
  (forall q, In q qq -> unit4 q) -> length ws = length qq -> (forall r, In r ws -> 0 <= r) ->
  unit4 (davenport geev4 w qq) /\
  forall x, unit4 x -> cost (combine ws qq) (davenport geev4 w qq) <= cost (combine ws qq) x.
Proof. exact davenport_best. Qed.
Print Assumptions C124_mean_rotation.

(** C124: aa_la_d_maxloc gives the place of a greatest element. *)
Theorem C124_maxloc : forall x n, (0 < n)%nat ->
  (maxloc n x < n)%nat /\ forall j, (j < n)%nat -> x j <= x (maxloc n x).
Proof. exact maxloc_ok. Qed.
Print Assumptions C124_maxloc.

(** C124: which leading dimensions aa_la_d_eev takes: LAPACK stays inside the
    copied matrix exactly when the leading dimension is n (or n is at most 1).
    Wished for every leading dimension of at least n; refuted for n = 2, lda = 3. *)
Theorem C124_eev_inside : forall n A lda, (n <= lda)%nat ->
  (all_some (eev_reads n A lda) = true <-> (n <= 1)%nat \/ lda = n).
Proof. exact eev_inside. Qed.
Print Assumptions C124_eev_inside.
Theorem C124_eev_refuted : forall A, all_some (eev_reads 2 A 3) = false.
Proof. intros A. reflexivity. Qed.
Print Assumptions C124_eev_refuted.

(** Two equal quaternions; the eigenvectors of their matrix *)
Definition ex_q : v4 := fun i => if Nat.eqb i 3 then 1 else 0.
Definition ex_geev (M : m4) : (nat -> R) * (nat -> v4) :=
  (fun k => M k k, fun k i => if Nat.eqb i k then 1 else 0).
Example C124_nonvacuous :
  geev_ok (davenport_matrix (combine [1/2; 1/2] [ex_q; ex_q])) (ex_geev (davenport_matrix (combine [1/2; 1/2] [ex_q; ex_q]))) /\
  unit4 ex_q /\ maxloc 4 (fst (ex_geev (davenport_matrix (combine [1/2; 1/2] [ex_q; ex_q])))) = 3%nat.
Proof.
  set (M := davenport_matrix (combine [1/2; 1/2] [ex_q; ex_q])).
  assert (E : forall i j, M i j = (if Nat.eqb i 3 then 1 else 0) * (if Nat.eqb j 3 then 1 else 0)).
  { intros i j. unfold M, davenport_matrix, davenport_add, ex_q. cbn [combine fold_left fst snd].
    destruct (Nat.eqb i 3), (Nat.eqb j 3); lra. }
  split; [|split].
  - split; [|split].
    + intros k i Hk Hi. unfold sum4. rewrite !E. cbn [ex_geev fst snd]. rewrite E.
      destruct k as [|[|[|[|]]]]; try lia; destruct i as [|[|[|[|]]]]; try lia; cbn; ring.
    + intros k Hk. unfold unit4, sum4. cbn [ex_geev fst snd]. destruct k as [|[|[|[|]]]]; try lia; cbn; ring.
    + intros x. exists x. intros i Hi. unfold sum4. cbn [ex_geev fst snd]. destruct i as [|[|[|[|]]]]; try lia; cbn; ring.
  - unfold unit4, sum4, ex_q. cbn. ring.
  - unfold maxloc. cbn [Nat.sub maxloc_from ex_geev fst]. rewrite !E. cbn [Nat.eqb].
    destruct (Rlt_dec (0 * 0) (0 * 0)); [lra|]. destruct (Rlt_dec (0 * 0) (0 * 0)); [lra|].
    destruct (Rlt_dec (0 * 0) (1 * 1)); [reflexivity|lra].
Qed.

(** C125: aa_la_d_median gives the middle element, or the mean of the two middle
    elements, of the sorted data; no number has a smaller sum of absolute
    deviations. *)
Theorem C125_median : forall l, l <> [] ->
  exists m, median l = Some m /\ is_median l m /\ forall t, dev1 l m <= dev1 l t.
Proof.
  intros l N. destruct (nmedian_ok l N) as (m & E & H). exists m. split; [exact E|]. split; [exact H|]. now apply median_best.
Qed.
Print Assumptions C125_median.
(** C125: the median absolute deviations are medians of the distances. *)
Theorem C125_mad : forall l u, l <> [] ->
  exists m, mad u l = Some m /\ is_median (map (fun x => Rabs (u - x)) l) m.
Proof. intros l u N. apply nmedian_ok. destruct l; [tauto|discriminate]. Qed.
Print Assumptions C125_mad.
Theorem C125_mad2 : forall cols u, cols <> [] ->
  exists m, mad2 u cols = Some m /\ is_median (map (fun c => sqrt (ssd c u)) cols) m.
Proof. intros l u N. apply nmedian_ok. destruct l; [tauto|discriminate]. Qed.
Print Assumptions C125_mad2.
(** C125: with the rotation given, aa_tf_relx_mean is the translation of least
    squared misfit, aa_tf_relx_median that of least absolute misfit. *)
Theorem C125_relx_mean : forall R_ xy, xy <> [] ->
  forall t, misfit d2 R_ (relx_mean R_ xy) xy <= misfit d2 R_ t xy.
Proof. exact relx_mean_best. Qed.
Print Assumptions C125_relx_mean.
Theorem C125_relx_median : forall R_ xy, xy <> [] ->
  exists r, relx_median R_ xy = Some r /\ forall t, misfit d1 R_ r xy <= misfit d1 R_ t xy.
Proof. exact relx_median_best. Qed.
Print Assumptions C125_relx_median.
(** C125 refuted for float data: the comparison of the float median reads a
    double at each element, so past the end of the array at the last. *)
Theorem C125_float_refuted : forall n, (0 < n)%nat -> compar_inside 4 n (n - 1) = false.
Proof. intros n H. unfold compar_inside. apply Nat.leb_gt. lia. Qed.
Print Assumptions C125_float_refuted.
Example C125_nonvacuous : is_median [3; 1; 2; 10] (5 / 2) /\
  (forall n i, (i < n)%nat -> compar_inside 8 n i = true) /\
  misfit d2 (mkM 1 0 0 0 1 0 0 0 1) (relx_mean (mkM 1 0 0 0 1 0 0 0 1) [(mkV 0 0 0, mkV 1 2 3); (mkV 1 0 0, mkV 2 2 3)])
    [(mkV 0 0 0, mkV 1 2 3); (mkV 1 0 0, mkV 2 2 3)] = 0.
Proof.
  split; [|split].
  - exists [1; 2; 3; 10]. split; [|split].
    + transitivity [1; 3; 2; 10]; [constructor|]. apply perm_skip. constructor.
    + intros i j H. cbn in H. destruct i as [|[|[|[|]]]], j as [|[|[|[|]]]]; try lia; cbn; lra.
    + cbn. lra.
  - intros n i H. unfold compar_inside. apply Nat.leb_le. lia.
  - unfold relx_mean, colmean3, relx. cbn. unfold d2. cbn. field.
Qed.

(** C126: points on a plane that does not pass through the origin, spanning the
    space: aa_la_plane_fit gives exactly the plane, with unit normal and positive
    offset. *)
Theorem C126_plane : forall lls pts m a d,
  (forall p, In p pts -> length p = m) -> length a = m -> inner a a = 1 -> 0 < d ->
  (forall p, In p pts -> inner a p + d = 0) ->
  (forall x, length x = m -> (forall p, In p pts -> inner p x = 0) -> forall c, In c x -> c = 0) ->
  (forall A b, lls_ok m A b (lls A b)) ->
  colfit lls pts = Some (a ++ [d]).
Proof. exact colfit_plane. Qed.
Print Assumptions C126_plane.
(** C126 refuted for planes through the origin: four points on the plane z = 0
    give 0/0. *)
Theorem C126_origin_refuted : forall lls, (forall A b, lls_ok 3 A b (lls A b)) ->
  colfit lls [[1; 0; 0]; [-1; 0; 0]; [0; 1; 0]; [0; -1; 0]] = None.
Proof. exact colfit_origin. Qed.
Print Assumptions C126_origin_refuted.
(** The plane z = -2 by three points *)
Example C126_nonvacuous : let pts := [[0; 0; -2]; [1; 0; -2]; [0; 1; -2]] in let a := [0; 0; 1] in
  (forall p, In p pts -> inner a p + 2 = 0) /\ inner a a = 1 /\
  (forall x, length x = 3%nat -> (forall p, In p pts -> inner p x = 0) -> forall c, In c x -> c = 0).
Proof.
  cbn zeta. split; [|split].
  - intros p [<-|[<-|[<-|[]]]]; cbn; lra.
  - cbn. lra.
  - intros x L H. destruct x as [|a [|b [|c [|]]]]; try discriminate.
    pose proof (H _ (or_introl eq_refl)) as H1. pose proof (H _ (or_intror (or_introl eq_refl))) as H2.
    pose proof (H _ (or_intror (or_intror (or_introl eq_refl)))) as H3. cbn in H1, H2, H3.
    intros e [<-|[<-|[<-|[]]]]; lra.
Qed.
