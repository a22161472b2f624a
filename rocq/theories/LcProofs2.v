(** Joint rates under limits: results for chains. *)
From Coq Require Import ZArith String List Bool Reals Lra Lia.
From Verif Require Import TfModel TfSpec SgModel SgSpec SgKinSpec SgClaims3 SgChainProofs IkSpec IkObj
  MatModel MatSpec MatProofs LaModel LaSpec LaAlg LaProofs La2Proofs La3Proofs La4Proofs WkRateModel WkRateSpec WkRate WkRate2 WkRate3 LcModel LcSpec LcProofs.
Import ListNotations.
Open Scope R_scope.

Lemma nearest_same n J b c y z : nearest_solution n J b c y -> nearest_solution n J b c z -> forall i, (i < n)%nat -> y i = z i.
Proof.
  intros [Ly Ny] [Lz Nz] i Hi. destruct (Ny z Lz) as [A _]. destruct (Nz y Ly) as [B E]. apply E; [now apply Rle_antisym|exact Hi].
Qed.
Lemma list_eq (x y : list R) : length x = length y -> (forall i, (i < length x)%nat -> vec_of x i = vec_of y i) -> x = y.
Proof. intros L H. now apply (nth_ext x y 0 0). Qed.

(** A solver: the corner of the box where the objective is largest, if it meets the other bounds *)
Definition corner_at (p : lp) (j : nat) : R := if Rle_dec 0 (lp_c p j) then lp_max p j else lp_min p j.
Definition atleast_dec (a : option R) (x : R) : {at_least a x} + {~ at_least a x} := match a with Some y => Rle_dec y x | None => left I end.
Definition atmost_dec (a : option R) (x : R) : {at_most a x} + {~ at_most a x} := match a with Some y => Rle_dec x y | None => left I end.
Fixpoint rows_ok (p : lp) (x : nat -> R) (i : nat) (rows : list (option R * option R)) : bool :=
  match rows with
  | [] => true
  | (lo, hi) :: r => (if atleast_dec lo (mulv 7 (lp_A p) x i) then true else false) && (if atmost_dec hi (mulv 7 (lp_A p) x i) then true else false) && rows_ok p x (S i) r
  end.
Fixpoint box_ok (p : lp) (x : nat -> R) (k : nat) : bool :=
  match k with 0%nat => true | S k => (if Rle_dec (lp_min p k) (x k) then true else false) && (if Rle_dec (x k) (lp_max p k) then true else false) && box_ok p x k end.
Definition corner (p : lp) : Z * (nat -> R) := (if box_ok p (corner_at p) 7 && rows_ok p (corner_at p) 0 (lp_rows p) then 0%Z else 1%Z, corner_at p).
Lemma rows_ok_iff p x rows : forall i, rows_ok p x i rows = true <-> forall k lo hi, nth_error rows k = Some (lo, hi) ->
  at_least lo (mulv 7 (lp_A p) x (i + k)) /\ at_most hi (mulv 7 (lp_A p) x (i + k)).
Proof.
  induction rows as [|[lo hi] rows IH]; intros i; cbn [rows_ok]; [split; [intros _ [|k]; discriminate|reflexivity]|].
  rewrite !andb_true_iff, IH. split.
  - intros [[H1 H2] H3] [|k] a b E.
    + injection E as <- <-. rewrite Nat.add_0_r. destruct atleast_dec; [|discriminate H1]. destruct atmost_dec; [|discriminate H2]. auto.
    + specialize (H3 k a b E). now rewrite <- plus_n_Sm.
  - intros H. destruct (H 0%nat lo hi eq_refl) as [A B]. rewrite Nat.add_0_r in A, B. destruct atleast_dec; [|tauto]. destruct atmost_dec; [|tauto].
    split; [auto|]. intros k aa bb E. specialize (H (S k) aa bb E). now rewrite <- plus_n_Sm in H.
Qed.
Lemma box_ok_iff p x k : box_ok p x k = true <-> forall j, (j < k)%nat -> lp_min p j <= x j <= lp_max p j.
Proof.
  induction k as [|k IH]; cbn [box_ok]; [split; [intros; lia|reflexivity]|]. rewrite !andb_true_iff, IH. split.
  - intros [[H1 H2] H3] j Hj. destruct (Nat.eq_dec j k) as [->|]; [|apply H3; lia]. destruct Rle_dec; [|discriminate H1]. destruct Rle_dec; [|discriminate H2]. lra.
  - intros H. pose proof (H k (le_n _)). destruct Rle_dec; [|lra]. destruct Rle_dec; [|lra]. split; [auto|]. intros j Hj. apply H. lia.
Qed.
Lemma corner_iff p : fst (corner p) = 0%Z <-> feasible p (corner_at p).
Proof.
  unfold corner, feasible. cbn [fst]. rewrite <- (box_ok_iff p (corner_at p) 7). pose proof (rows_ok_iff p (corner_at p) (lp_rows p) 0) as H. cbn [Nat.add] in H. rewrite <- H.
  destruct box_ok; cbn [andb]; [|split; [discriminate|intros [X _]; discriminate X]]. destruct rows_ok; split; auto; try discriminate. intros [_ X]. discriminate X.
Qed.
Lemma corner_optimal : optimal corner.
Proof.
  split.
  - intros p x E. assert (X : x = corner_at p) by (unfold corner in E; congruence). subst x. apply corner_iff. now rewrite E.
  - intros p x y E [By _]. assert (X : x = corner_at p) by (unfold corner in E; congruence). subst x. unfold dotp. apply bsum_le. intros j Hj.
    specialize (By j Hj). unfold corner_at. destruct Rle_dec; nra.
Qed.

Lemma mulv_minus_gen P a b i : mulv 6 P (fun k => a k - b k) i = mulv 6 P a i - mulv 6 P b i.
Proof. unfold mulv. cbn [bsum]. ring. Qed.
Section Chain.
  Context (h : list op) (s : sg) (root tip : string) (tz : Z) (ls : list string) (ss : ssg) (q0 : string -> R) (abs : list QV).
  Hypothesis C : chain_of h s root tip tz ls ss.
  Hypothesis Po : forall m, In m (root :: ls) -> posed_at (declared h) s q0 abs m.
  Let n := length (ss_configs ss).
  Hypothesis Hn : (0 < n)%nat.
  Context (pos vel acc : list (option (R * R))).
  Hypothesis Lp : limits_of (declared h) s ls LPos pos.
  Hypothesis Lv : limits_of (declared h) s ls LVel vel.
  Hypothesis Lc : limits_of (declared h) s ls LAcc acc.
  Let Hp := chain_limits_of h s root tip tz ls ss LPos pos C Lp.
  Let Hv := chain_limits_of h s root tip tz ls ss LVel vel C Lv.
  Let Hc := chain_limits_of h s root tip tz ls ss LAcc acc C Lc.

  Lemma c84_six : n = 6%nat ->
    exists l, chain_jacobian s abs ss = Ok l /\ velocity_matrix (declared h) root tip ls q0 (colmat l) /\
    forall o gesdd junk r M0 solve dt dx_r q_a dq_a dq_r,
    (0 < wo_s2min o \/ wo_kdls o <= 0 -> decomposes gesdd 6 n (colmat l) r) ->
    0 < dt -> length dx_r = 6%nat -> length q_a = n -> length dq_a = n -> length dq_r = n -> sound solve ->
    let run := wk_dx2dq_lc3 gesdd junk M0 solve o s abs ss dt dx_r q_a dq_a dq_r n in
    let J := colmat l in let vec q i := nth i q 0 in
    ((exists code, code <> 0%Z /\ run = Done (code, None)) \/
     exists dq, run = Done (0%Z, Some dq) /\ length dq = n /\ all_allowed dt pos vel acc q_a dq_a dq /\
       (regular o n r -> (forall b, exists z, forall i, (i < 6)%nat -> mulv n J z i = b i) ->
        forall i, (i < 6)%nat -> betw (mulv n J (vec dq_a) i) (vec dx_r i) (mulv n J (vec dq) i))) /\
    (complete solve -> all_allowed dt pos vel acc q_a dq_a dq_a -> exists dq, run = Done (0%Z, Some dq)) /\
    (regular o n r -> forall y, length y = n -> nearest_solution n J (vec dx_r) (vec dq_r) (vec y) -> all_allowed dt pos vel acc q_a dq_a y ->
      (complete solve -> exists dq, run = Done (0%Z, Some dq)) /\
      (optimal solve -> forall dq, run = Done (0%Z, Some dq) -> dq = y)).
  Proof.
    intros N6. destruct (jac_matrix h s root tip tz ls ss C q0 abs Po) as (l & K & HJ & _ & HL & _ & HV). exists l. split; [exact HJ|]. split; [exact HV|].
    intros o gesdd junk r M0 solve dt dx_r q_a dq_a dq_r HD Hdt Lx Lq La Lr So run J vec.
    destruct (lc3_run gesdd junk o s abs ss l r Hn HJ HL HD dt dx_r q_a dq_a dq_r pos vel acc Hdt Lx Lq La Lr Hp Hv Hc) as (P & HP & HR).
    destruct (HR M0) as (p & Pr & E). specialize (E solve). fold n in E. fold run in E.
    assert (T : Nat.ltb n 6 = false) by (apply Nat.ltb_ge; lia). rewrite T in E.
    assert (W : forall x, written ss dq_a p x = chosen ss dq_a p x) by (intros; apply (written_chosen ss l Hn HL dx_r q_a dq_a dq_r Lx Lq La Lr); exact N6).
    pose proof (feasible_iff gesdd junk o s ss l r Hn HL HD dt dx_r q_a dq_a dq_r pos vel acc Hdt Lx Lq La Lr Hp Hv Hc P p) as Fe.
    assert (Lch : forall x, length (chosen ss dq_a p x) = n) by (intros; unfold chosen; rewrite map_length, seq_length; reflexivity).
    assert (Zero : feasible p (fun _ => 0) <-> all_allowed dt pos vel acc q_a dq_a dq_a).
    { rewrite (Fe _ Pr). assert (Z : chosen ss dq_a p (fun _ => 0) = dq_a).
      { apply list_eq; [now rewrite Lch|]. intros i Hi. rewrite Lch in Hi. rewrite (nth_vec _ _ _ (nth_chosen ss dq_a p (fun _ => 0) i Hi)).
        rewrite (mulv_ext 7 (lp_A p) (fun _ => 0) (fun _ => 0 * 0)) by (intros; ring). unfold mulv. cbn [bsum]. ring. }
      rewrite Z. split; [tauto|]. intros H. split; [intros; unfold betw; lra|]. split; [lra|exact H]. }
    split; [|split].
    - destruct (solve p) as [c x] eqn:Sp. destruct (Z.eqb_spec 0 c) as [<-|Ne]; [right|left; exists c; auto].
      rewrite W in E. exists (chosen ss dq_a p x). pose proof (So p x Sp) as F. apply (Fe _ Pr) in F as (B & B6 & Al).
      split; [exact E|]. split; [apply Lch|]. split; [exact Al|]. intros Rg On i Hi.
      pose proof (tip_vel ss l Hn HL dt dx_r q_a dq_a dq_r pos vel acc Lx Lq La Lr P p x i Pr (io_exact _ _ _ _ _ HP Rg) On Hi) as Tv.
      change (vec dq_a) with (vec_of dq_a). change (vec (chosen ss dq_a p x)) with (vec_of (chosen ss dq_a p x)). fold n in Tv. unfold J. rewrite Tv.
      specialize (B i Hi). unfold miss in B. fold n in B. set (a := mulv n (colmat l) (vec_of dq_a) i) in *. change (vec dx_r i) with (vec_of dx_r i). set (b := vec_of dx_r i) in *.
      unfold betw in *. assert (D : dt * ((b - a) / dt) = b - a) by (field; lra). set (m := (b - a) / dt) in *. destruct B as [B|B]; [left|right]; nra.
    - intros Co Al. apply Zero in Al. destruct (Co p _ Al) as [x Sp]. rewrite Sp in E. cbn [Z.eqb] in E. eauto.
    - intros Rg y Ly Ne Al.
      set (xs := fun j => if Nat.ltb j 6 then miss ss l dt dx_r dq_a j else 1).
      assert (X : forall j, (j < 6)%nat -> xs j = miss ss l dt dx_r dq_a j) by (intros j Hj; unfold xs; destruct (Nat.ltb_spec j 6); [reflexivity|lia]).
      assert (Y : forall x, (forall j, (j < 6)%nat -> x j = miss ss l dt dx_r dq_a j) -> x 6%nat = 1 -> chosen ss dq_a p x = y).
      { intros x Hx H6. apply list_eq; [now rewrite Lch|]. intros i Hi. rewrite Lch in Hi. rewrite (nth_vec _ _ _ (nth_chosen ss dq_a p x i Hi)).
        rewrite (full_step ss l Hn HL dt dx_r q_a dq_a dq_r pos vel acc Hdt Lx Lq La Lr P p x i Pr Hx H6 Hi).
        symmetry. apply (nearest_same n J (vec dx_r) (vec dq_r) (vec y)); [exact Ne| |exact Hi]. apply nearest_np. exact (io_exact _ _ _ _ _ HP Rg). }
      assert (F : feasible p xs).
      { apply (Fe _ Pr). rewrite (Y xs X eq_refl). split; [|split; [unfold xs; cbn; lra|exact Al]]. intros j Hj. rewrite X by exact Hj. unfold betw. destruct (Rle_or_lt 0 (miss ss l dt dx_r dq_a j)); lra. }
      split; [intros Co; destruct (Co p xs F) as [x Sp]; rewrite Sp in E; cbn [Z.eqb] in E; eauto|].
      intros [_ Op] dq Run. rewrite E in Run. destruct (solve p) as [c x] eqn:Sp. destruct (Z.eqb_spec 0 c) as [<-|]; [|discriminate Run]. rewrite W in Run. injection Run as <-.
      destruct (best_step gesdd junk o s ss l r Hn HL HD dt dx_r q_a dq_a dq_r pos vel acc Hdt Lx Lq La Lr Hp Hv Hc P p x xs Pr (So p x Sp) F X eq_refl (Op p x xs Sp F)) as [X1 X2].
      now apply Y.
  Qed.

  (** with fewer joints the end of dq is overrun *)
  Lemma c84_fewer : (n < 6)%nat -> forall l, chain_jacobian s abs ss = Ok l ->
    forall o gesdd junk r M0 solve dt dx_r q_a dq_a dq_r,
    (0 < wo_s2min o \/ wo_kdls o <= 0 -> decomposes gesdd 6 n (colmat l) r) ->
    0 < dt -> length dx_r = 6%nat -> length q_a = n -> length dq_a = n -> length dq_r = n -> complete solve ->
    all_allowed dt pos vel acc q_a dq_a dq_a ->
    wk_dx2dq_lc3 gesdd junk M0 solve o s abs ss dt dx_r q_a dq_a dq_r n = Undef.
  Proof.
    intros N6 l HJ. destruct (jac_matrix h s root tip tz ls ss C q0 abs Po) as (l' & K & HJ' & _ & HL & _ & HV). rewrite HJ in HJ'. injection HJ' as <-.
    intros o gesdd junk r M0 solve dt dx_r q_a dq_a dq_r HD Hdt Lx Lq La Lr Co Al.
    destruct (lc3_run gesdd junk o s abs ss l r Hn HJ HL HD dt dx_r q_a dq_a dq_r pos vel acc Hdt Lx Lq La Lr Hp Hv Hc) as (P & HP & HR).
    destruct (HR M0) as (p & Pr & E). specialize (E solve). fold n in E. rewrite E.
    assert (F : feasible p (fun _ => 0)).
    { apply (feasible_iff gesdd junk o s ss l r Hn HL HD dt dx_r q_a dq_a dq_r pos vel acc Hdt Lx Lq La Lr Hp Hv Hc P p _ Pr). split; [intros; unfold betw; lra|]. split; [lra|].
      assert (Z : chosen ss dq_a p (fun _ => 0) = dq_a); [|now rewrite Z].
      assert (Lch : length (chosen ss dq_a p (fun _ => 0)) = n) by (unfold chosen; rewrite map_length, seq_length; reflexivity).
      apply list_eq; [now rewrite Lch|]. intros i Hi. rewrite Lch in Hi. rewrite (nth_vec _ _ _ (nth_chosen ss dq_a p (fun _ => 0) i Hi)).
      unfold mulv. cbn [bsum]. ring. }
    destruct (Co p _ F) as [x Sp]. rewrite Sp. cbn [Z.eqb]. assert (T : Nat.ltb n 6 = true) by (apply Nat.ltb_lt; lia). now rewrite T.
  Qed.
  (** joints past the sixth take no part in secondary motions *)
  Lemma c84_more : (6 < n)%nat -> forall l, chain_jacobian s abs ss = Ok l ->
    forall o gesdd junk r M0 solve dt dx_r q_a dq_a dq_r dq,
    (0 < wo_s2min o \/ wo_kdls o <= 0 -> decomposes gesdd 6 n (colmat l) r) ->
    0 < dt -> length dx_r = 6%nat -> length q_a = n -> length dq_a = n -> length dq_r = n -> sound solve ->
    (forall i, (i < 6)%nat -> mulv n (colmat l) (fun k => nth k dq_a 0) i = nth i dx_r 0) ->
    wk_dx2dq_lc3 gesdd junk M0 solve o s abs ss dt dx_r q_a dq_a dq_r n = Done (0%Z, Some dq) ->
    forall i, (6 <= i < n)%nat -> nth i dq 0 = nth i dq_a 0.
  Proof.
    intros N6 l HJ. destruct (jac_matrix h s root tip tz ls ss C q0 abs Po) as (l' & K & HJ' & _ & HL & _ & HV). rewrite HJ in HJ'. injection HJ' as <-.
    intros o gesdd junk r M0 solve dt dx_r q_a dq_a dq_r dq HD Hdt Lx Lq La Lr So Eq Run i Hi.
    destruct (lc3_run gesdd junk o s abs ss l r Hn HJ HL HD dt dx_r q_a dq_a dq_r pos vel acc Hdt Lx Lq La Lr Hp Hv Hc) as (P & HP & HR).
    destruct (HR M0) as (p & Pr & E). specialize (E solve). fold n in E. rewrite E in Run. clear E.
    destruct (solve p) as [c x] eqn:Sp. destruct (Z.eqb_spec 0 c) as [<-|]; [|discriminate Run]. destruct (Nat.ltb_spec n 6); [lia|]. injection Run as <-.
    apply So in Sp. apply (feasible_iff gesdd junk o s ss l r Hn HL HD dt dx_r q_a dq_a dq_r pos vel acc Hdt Lx Lq La Lr Hp Hv Hc P p _ Pr) in Sp as (B & _).
    assert (X : forall j, (j < 6)%nat -> x j = 0).
    { intros j Hj. specialize (B j Hj). unfold miss in B. fold n in B. change (mulv n (colmat l) (vec_of dq_a) j) with (mulv n (colmat l) (fun k => nth k dq_a 0) j) in B.
      rewrite (Eq j Hj) in B. unfold vec_of, betw in B. replace ((nth j dx_r 0 - nth j dx_r 0) / dt) with 0 in B by (field; lra). lra. }
    unfold written. set (f := fun i : nat => if Nat.ltb i 6 then _ else _).
    assert (Hs : (i < length (seq 0 n))%nat) by (rewrite seq_length; lia). rewrite (nth_indep _ 0 (f 0%nat)) by (rewrite map_length; exact Hs).
    fold n. rewrite map_nth, seq_nth by lia. unfold f. cbn [Nat.add]. destruct (Nat.ltb_spec i 6); [lia|]. rewrite bsum_zero; [unfold vec_of; ring|].
    intros k Hk. rewrite X by exact Hk. ring.
  Qed.
  (** the joints past the sixth get the rates nearest to those they have *)
  Lemma c84_mixed : (6 < n)%nat -> forall l, chain_jacobian s abs ss = Ok l ->
    forall o gesdd junk r M0 solve dt dx_r q_a dq_a dq_r,
    (0 < wo_s2min o \/ wo_kdls o <= 0 -> decomposes gesdd 6 n (colmat l) r) -> regular o n r ->
    0 < dt -> length dx_r = 6%nat -> length q_a = n -> length dq_a = n -> length dq_r = n -> optimal solve ->
    let run := wk_dx2dq_lc3 gesdd junk M0 solve o s abs ss dt dx_r q_a dq_a dq_r n in
    let J := colmat l in let vec q i := nth i q 0 in
    forall y y0, length y = n -> nearest_solution n J (vec dx_r) (vec dq_r) (vec y) -> nearest_solution n J (vec dx_r) (vec dq_a) y0 ->
    all_allowed dt pos vel acc q_a dq_a y ->
    (forall dq, run = Done (0%Z, Some dq) -> forall i, (i < n)%nat -> nth i dq 0 = if Nat.ltb i 6 then nth i y 0 else y0 i) /\
    (complete solve \/ solve = corner -> exists dq, run = Done (0%Z, Some dq)).
  Proof.
    intros N6 l HJ. destruct (jac_matrix h s root tip tz ls ss C q0 abs Po) as (l' & K & HJ' & _ & HL & _ & HV). rewrite HJ in HJ'. injection HJ' as <-.
    intros o gesdd junk r M0 solve dt dx_r q_a dq_a dq_r HD Rg Hdt Lx Lq La Lr [So Op] run J vec y y0 Ly Ny Ny0 Al.
    destruct (lc3_run gesdd junk o s abs ss l r Hn HJ HL HD dt dx_r q_a dq_a dq_r pos vel acc Hdt Lx Lq La Lr Hp Hv Hc) as (P & HP & HR).
    destruct (HR M0) as (p & Pr & E). specialize (E solve). fold n in E. fold run in E.
    assert (T : Nat.ltb n 6 = false) by (apply Nat.ltb_ge; lia). rewrite T in E.
    pose proof (feasible_iff gesdd junk o s ss l r Hn HL HD dt dx_r q_a dq_a dq_r pos vel acc Hdt Lx Lq La Lr Hp Hv Hc P p) as Fe.
    pose proof (io_exact _ _ _ _ _ HP Rg) as MP.
    set (m := miss ss l dt dx_r dq_a).
    assert (Y : forall x, (forall j, (j < 6)%nat -> x j = m j) -> x 6%nat = 1 -> forall i, (i < n)%nat -> vec_of dq_a i + mulv 7 (lp_A p) x i = vec y i).
    { intros x Hx H6 i Hi. rewrite (full_step ss l Hn HL dt dx_r q_a dq_a dq_r pos vel acc Hdt Lx Lq La Lr P p x i Pr Hx H6 Hi).
      symmetry. apply (nearest_same n J (vec dx_r) (vec dq_r) (vec y)); [exact Ny| |exact Hi]. apply nearest_np. exact MP. }
    assert (Fx : forall x, (forall j, (j < 6)%nat -> x j = m j) -> x 6%nat = 1 -> feasible p x).
    { intros x Hx H6. apply (Fe _ Pr). assert (Z : chosen ss dq_a p x = y).
      { apply list_eq; unfold chosen; rewrite map_length, seq_length; [now rewrite Ly|]. intros i Hi. fold (chosen ss dq_a p x).
        rewrite (nth_vec _ _ _ (nth_chosen ss dq_a p x i Hi)). now apply Y. }
      rewrite Z. split; [|split; [lra|exact Al]]. intros j Hj. rewrite (Hx j Hj). fold m. unfold betw. destruct (Rle_or_lt 0 (m j)); lra. }
    set (xs := fun j => if Nat.ltb j 6 then m j else 1).
    assert (X : forall j, (j < 6)%nat -> xs j = m j) by (intros j Hj; unfold xs; destruct (Nat.ltb_spec j 6); [reflexivity|lia]).
    pose proof (Fx xs X eq_refl) as F.
    split.
    - intros dq Run i Hi. rewrite E in Run. destruct (solve p) as [c x] eqn:Sp. destruct (Z.eqb_spec 0 c) as [<-|]; [|discriminate Run]. injection Run as <-.
      destruct (best_step gesdd junk o s ss l r Hn HL HD dt dx_r q_a dq_a dq_r pos vel acc Hdt Lx Lq La Lr Hp Hv Hc P p x xs Pr (So p x Sp) F X eq_refl (Op p x xs Sp F)) as [X1 X2].
      unfold written. fold n. set (f := fun i : nat => if Nat.ltb i 6 then _ else _). rewrite (nth_indep _ 0 (f 0%nat)) by (rewrite map_length, seq_length; exact Hi).
      rewrite map_nth, seq_nth by exact Hi. unfold f. cbn [Nat.add]. destruct (Nat.ltb_spec i 6) as [I6|I6].
      + change (nth i y 0) with (vec y i). rewrite <- (Y x X1 X2 i Hi). unfold mulv. cbn [bsum]. ring.
      + transitivity (nullspace_solution 6 n J P (vec dx_r) (vec dq_a) i).
        * transitivity (vec dq_a i + mulv 6 P (fun k => vec dx_r k - mulv n J (vec dq_a) k) i); [unfold mulv at 1|rewrite mulv_minus_gen; unfold nullspace_solution; ring].
          rewrite (bsum_ext 6 (fun k => lp_A p i k * x k) (fun k => P i k * (vec dx_r k - mulv n J (vec dq_a) k))); [reflexivity|].
          intros k Hk. rewrite (pr_A _ _ _ _ _ _ _ _ _ _ _ _ Pr i k Hi Hk), (X1 k Hk). unfold miss. fold n. change (vec_of dx_r k) with (vec dx_r k).
          change (mulv n (colmat l) (vec_of dq_a) k) with (mulv n J (vec dq_a) k). field. lra.
        * apply (nearest_same n J (vec dx_r) (vec dq_a)); [apply nearest_np; exact MP|exact Ny0|exact Hi].
    - intros [Co| ->]; [destruct (Co p xs F) as [x Sp]; rewrite Sp in E; cbn [Z.eqb] in E; eauto|].
      assert (Q : feasible p (corner_at p)).
      { assert (Bx : forall j, (j < 6)%nat -> corner_at p j = m j).
        { intros j Hj. unfold corner_at. rewrite (pr_c _ _ _ _ _ _ _ _ _ _ _ _ Pr j Hj). fold m. pose proof (pr_x _ _ _ _ _ _ _ _ _ _ _ _ Pr j (m j) Hj) as Q1.
          fold m in Q1. assert (Bm : betw 0 (m j) (m j)) by (unfold betw; destruct (Rle_or_lt 0 (m j)); lra). apply Q1 in Bm.
          destruct Rle_dec as [D|D].
          - assert (B2 : betw 0 (m j) (lp_max p j)) by (apply (pr_x _ _ _ _ _ _ _ _ _ _ _ _ Pr j _ Hj); lra). unfold betw in B2. lra.
          - assert (B2 : betw 0 (m j) (lp_min p j)) by (apply (pr_x _ _ _ _ _ _ _ _ _ _ _ _ Pr j _ Hj); lra). unfold betw in B2. lra. }
        apply Fx; [exact Bx|]. unfold corner_at. rewrite (pr_c6 _ _ _ _ _ _ _ _ _ _ _ _ Pr). destruct Rle_dec; [|lra]. apply (pr_x6 _ _ _ _ _ _ _ _ _ _ _ _ Pr). }
      apply corner_iff in Q. destruct (corner p) as [c x]. cbn [fst] in Q. subst c. cbn [Z.eqb] in E. eauto.
  Qed.
End Chain.

(** without acceleration limits the positions of the joints do not matter *)
Lemma bounds_no_acc s dt ids : forall q q' v, Forall (fun c => sg_get_limit s LAcc c = Ok None) ids -> length q = length ids -> length q' = length ids ->
  b_bounds s dt ids q v = b_bounds s dt ids q' v.
Proof.
  induction ids as [|c ids IH]; intros q q' v H L L'; [reflexivity|]. inversion H as [|? ? H1 H2]; subst.
  destruct q as [|x q], q' as [|x' q']; try discriminate. destruct v as [|z v]; [reflexivity|]. cbn [b_bounds length] in *. rewrite H1. cbn [lift obind].
  rewrite (IH q q' v H2) by lia. reflexivity.
Qed.
Lemma c84_no_acc h s root tip tz ls ss acc gesdd junk M0 solve o abs dt dx_r q_a q_a' dq_a dq_r ldq :
  chain_of h s root tip tz ls ss -> limits_of (declared h) s ls LAcc acc -> (forall l, In l acc -> l = None) ->
  length q_a = length (ss_configs ss) -> length q_a' = length (ss_configs ss) ->
  wk_dx2dq_lc3 gesdd junk M0 solve o s abs ss dt dx_r q_a dq_a dq_r ldq = wk_dx2dq_lc3 gesdd junk M0 solve o s abs ss dt dx_r q_a' dq_a dq_r ldq.
Proof.
  intros C Lc None' L L'. pose proof (chain_limits_of h s root tip tz ls ss LAcc acc C Lc) as F.
  assert (G : Forall (fun c => sg_get_limit s LAcc c = Ok None) (ss_configs ss)).
  { clear - F None'. induction F as [|c l cs ls Hl F IH]; constructor; [now rewrite (None' l (or_introl eq_refl)) in Hl|]. apply IH. intros l' I. apply None'. now right. }
  unfold wk_dx2dq_lc3, lc3_constraints. rewrite L, L', (bounds_no_acc s dt (ss_configs ss) q_a q_a' dq_a G L L'). reflexivity.
Qed.
Lemma c84_refuses gesdd junk M0 solve o s abs ss dt dx_r q_a dq_a dq_r ldq : let n := length (ss_configs ss) in
  (dt <= 0 -> wk_dx2dq_lc3 gesdd junk M0 solve o s abs ss dt dx_r q_a dq_a dq_r ldq = Done ((-1)%Z, None)) /\
  (0 < dt -> length dx_r <> 6%nat \/ length q_a <> n \/ length dq_a <> n \/ length dq_r <> n \/ ldq <> n ->
    wk_dx2dq_lc3 gesdd junk M0 solve o s abs ss dt dx_r q_a dq_a dq_r ldq = Fail).
Proof.
  intros n. unfold wk_dx2dq_lc3. fold n. split; intros H; destruct (Rle_dec dt 0); try lra; [reflexivity|]. intros X. unfold check.
  destruct (Nat.eqb_spec (length dx_r) 6); [|reflexivity]. destruct (Nat.eqb_spec (length q_a) n); [|reflexivity].
  destruct (Nat.eqb_spec (length dq_a) n); [|reflexivity]. destruct (Nat.eqb_spec (length dq_r) n); [|reflexivity]. destruct (Nat.eqb_spec ldq n); [|reflexivity]. lia.
Qed.
