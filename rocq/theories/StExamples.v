(** Failures and concrete cases for robot states and point lists. *)
From Coq Require Import List Reals Arith Bool Lra Lia.
Import ListNotations.
From Verif Require Import TrModel StModel StSpec StProofs StList.
Open Scope nat_scope.

Lemma put_too_long H a v : (forall arr, nth_error H (fst a) = Some arr -> length arr < snd a + length v) ->
  put_cells H a v = Undef.
Proof.
  intro K. unfold put_cells. destruct (nth_error H (fst a)) as [arr|]; [|reflexivity].
  specialize (K arr eq_refl). replace (snd a + length v <=? length arr) with false; [reflexivity|].
  symmetry. apply Nat.leb_gt. exact K.
Qed.
Lemma c86_frames H nq ntf H' s k a v : 0 < ntf -> state_alloc H nq ntf = (H', s) -> k = Pabs \/ k = Prel ->
  c_ptr s k = Some a -> length v = 7 * ntf -> put_cells H' a v = Undef.
Proof.
  unfold state_alloc. destruct (alloc_loop nq ntf alloc_parts H no_ptr) as [H1 f] eqn:E.
  intros N X K P L. injection X as <- <-.
  destruct (alloc_loop_ok _ _ _ _ _ _ _ E alloc_nodup) as (_ & _ & _ & S).
  destruct (alloc_all k) as [i I]. destruct (S _ _ I) as [A B]. cbn in P. rewrite A in P. injection P as <-.
  apply put_too_long. intros arr F. cbn in F. rewrite B in F. injection F as <-.
  destruct K as [-> | ->]; cbn [alloc_cells snd]; rewrite repeat_length; lia.
Qed.

(** ** two new states *)
Lemma same_parts_undef H s t l1 k n l2 :
  (forall j m, In (j, m) l1 -> same_part H (c_ptr s j) (c_ptr t j) m = Ok true) ->
  same_part H (c_ptr s k) (c_ptr t k) n = Undef -> same_parts H s t (l1 ++ (k, n) :: l2) = Undef.
Proof.
  intros A B. induction l1 as [|[j m] l1 IH]; cbn [app same_parts].
  - now rewrite B.
  - rewrite (A j m (or_introl eq_refl)). cbn [rbind]. apply IH. intros. apply A. now right.
Qed.
Lemma c86_new_compare H nq ntf H1 s H2 t : state_alloc H nq ntf = (H1, s) -> state_alloc H1 nq ntf = (H2, t) ->
  state_eqb H2 s t = Undef.
Proof.
  intros E F. destruct (c86_alloc _ _ _ _ _ E) as (_ & _ & _ & S1).
  destruct (c86_alloc _ _ _ _ _ F) as (G & _ & _ & T). assert (S := shows_grew _ _ _ _ G S1). clear S1 E F G.
  destruct S as (A1 & A2 & A), T as (B1 & B2 & B). cbn [v_nq v_ntf v_arr] in *.
  unfold state_eqb. rewrite A1, A2, B1, B2, !Nat.eqb_refl. cbn [negb orb].
  apply (same_parts_undef H2 s t [(Pq, nq); (Pdq, nq); (Pddq, nq)]).
  - intros j m I. assert (m = nq /\ (j = Pq \/ j = Pdq \/ j = Pddq)) as [-> J].
    { cbn in I. repeat destruct I as [I|I]; try contradiction; injection I as <- <-; auto. }
    specialize (A j). specialize (B j).
    assert (Z : (match j with Pq | Pdq | Pddq => repeat (Some 0%R) nq | _ => repeat None (size_of nq ntf j) end) = repeat (Some 0%R) nq)
      by (destruct J as [->|[->| ->]]; reflexivity). rewrite Z in A, B.
    destruct (c_ptr s j) as [a|]; [|contradiction]. destruct (c_ptr t j) as [b|]; [|contradiction].
    assert (ST : Forall (fun c : cell => c <> None) (repeat (Some 0%R) nq)).
    { apply Forall_forall. intros c C. apply repeat_spec in C. subst. discriminate. }
    destruct (veq_at_ok H2 _ _ a b (proj1 A) (proj1 B) eq_refl ST ST) as (r & R & I2).
    rewrite repeat_length in R. cbn [same_part]. rewrite R. f_equal. apply I2.
    clear. induction nq as [|n IH]; constructor; [|exact IH]. cbn. replace (0 - 0)%R with 0%R by lra. rewrite Rabs_R0. lra.
  - specialize (A PX). specialize (B PX). destruct (c_ptr s PX) as [a|]; [|contradiction].
    destruct (c_ptr t PX) as [b|]; [|contradiction]. cbn [same_part veq_at].
    destruct A as [A _]. cbn [repeat size_of] in A. now rewrite (rd_none _ _ _ A).
Qed.

(** ** one variable *)
Definition q1 (x : R) : view := mkV 1 0 (fun k => match k with Pq => Some [Some x] | _ => None end).
Definition at_q (b : nat) : cst := mkC 1 0 (set_ptr no_ptr Pq (Some (b, 0))).
Lemma q1_stored x : stored (q1 x).
Proof. intros k cs _. cbn. destruct k; try discriminate. intro E. injection E as <-. repeat constructor. discriminate. Qed.
Lemma q1_shown H b x : nth_error H b = Some [Some x] -> shows H (at_q b) (q1 x).
Proof.
  intro E. split; [reflexivity|]. split; [reflexivity|]. intros [| | | | | | | |]; cbn; try exact I.
  split; [|reflexivity]. exists [], []. cbn. auto.
Qed.
Lemma q1_near x y : near (q1 x) (q1 y) <-> (Rabs (x - y) <= 1 / 1000)%R.
Proof.
  split.
  - intros (_ & _ & K). specialize (K Pq). cbn in K. assert (C : compared Pq) by (cbv; intuition discriminate).
    specialize (K C). now inversion K.
  - intro L. split; [reflexivity|]. split; [reflexivity|]. intros [| | | | | | | |] _; cbn; auto.
Qed.
Lemma c86_not_transitive : exists H s t u,
  state_eqb H s t = Ok true /\ state_eqb H t u = Ok true /\ state_eqb H s u = Ok false.
Proof.
  set (H := [[Some 0%R]; [Some (9/10000)%R]; [Some (18/10000)%R]] : heap).
  exists H, (at_q 0), (at_q 1), (at_q 2).
  pose proof (q1_shown H 0 0%R eq_refl) as S0. pose proof (q1_shown H 1 (9/10000)%R eq_refl) as S1.
  pose proof (q1_shown H 2 (18/10000)%R eq_refl) as S2.
  destruct (c86_eq H _ _ _ _ S0 S1 (q1_stored _) (q1_stored _)) as (r & -> & I).
  destruct (c86_eq H _ _ _ _ S1 S2 (q1_stored _) (q1_stored _)) as (r' & -> & I').
  destruct (c86_eq H _ _ _ _ S0 S2 (q1_stored _) (q1_stored _)) as (r'' & -> & I'').
  rewrite q1_near in I, I', I''.
  assert (A : r = true) by (apply I; unfold Rabs; destruct Rcase_abs; lra).
  assert (B : r' = true) by (apply I'; unfold Rabs; destruct Rcase_abs; lra).
  assert (C : r'' <> true) by (intro C; apply I'' in C; revert C; unfold Rabs; destruct Rcase_abs; lra).
  subst. destruct r''; [congruence|auto].
Qed.

(** states that differ only in the efforts *)
Lemma c86_efforts_lost H L x e e' : forall s t H' L' H2, 
  history [] H L -> shows H s (q_eff x e) -> pts_add H L s = Ok (H', L') ->
  (length H' <= length H2) -> (forall i, owned L' i -> nth_error H2 i = nth_error H' i) ->
  shows H2 t (q_eff x e') -> pts_add H2 L' t = Ok (H2, L') /\
  exists p, final_state L' = Ok p /\ shows H2 p (q_eff x e).
Proof.
  intros s t H' L' H2 Hi S E LE O T.
  assert (ST : forall z, stored (q_eff x z)).
  { intros z k cs C. cbn. destruct k; try discriminate; intro F; injection F as <-; repeat constructor; discriminate. }
  pose proof (h_add _ _ _ _ _ _ _ Hi S (ST e) E) as Hi1. cbn [app] in Hi1.
  pose proof (h_write _ _ _ _ Hi1 LE O) as Hi2.
  destruct (history_good _ _ _ Hi2) as (l & A & C & SL & _).
  assert (l = [q_eff x e]).
  { apply (c86_one_answer _ _ A). apply (added_first []). constructor. }
  subst l. split.
  - destruct (add_call H2 L' _ t _ C SL T (ST e')) as [(W & l' & _ & _ & R)|([D|(W & l' & D & N)] & _)]; [exact R|discriminate|].
    destruct l' as [|? l']; [|destruct l'; discriminate]. injection D as <-. exfalso. apply N.
    split; [reflexivity|]. split; [reflexivity|]. intros [| | | | | | | |] K; cbn; auto.
    + constructor; [|constructor]. cbn. replace (x - x)%R with 0%R by lra. rewrite Rabs_R0. lra.
    + exfalso. apply K. cbn. tauto.
  - destruct (c86_ends _ _ _ _ C) as [_ F]. exact F.
Qed.

(** ** a path of four points, two of them alike *)
Definition v4 : list R := [0; 0; 1; 1; 1; 1 + 1/2000; 2; 2]%R.
Definition h4 : heap := [map Some v4].
Lemma v4_cells : cells_at h4 (0, 0) (map Some v4).
Proof. exists [], []. cbn. auto. Qed.
Lemma row_near n v i j : near (row n v i) (row n v j) <->
  Forall2 (fun x y => (Rabs (x - y) <= 1 / 1000)%R) (firstn n (skipn (i * n) v)) (firstn n (skipn (j * n) v)).
Proof.
  assert (K : forall a b, Forall2 near_cell (map Some a) (map Some b) <-> Forall2 (fun x y => (Rabs (x - y) <= 1 / 1000)%R) a b).
  { induction a as [|x a IH]; intros [|y b]; cbn; split; intro F; inversion F; subst; constructor; try assumption; now apply IH. }
  rewrite <- K. split.
  - intros (_ & _ & F). apply (F Pq). cbv. intuition discriminate.
  - intro F. split; [reflexivity|]. split; [reflexivity|]. intros [| | | | | | | |] _; cbn; auto.
Qed.
Lemma v4_added : added (map (fun i => (Back, row 2 v4 i)) (seq 0 4)) [row 2 v4 0; row 2 v4 1; row 2 v4 3].
Proof.
  cbn [seq map].
  apply (added_back [(Back, row 2 v4 0); (Back, row 2 v4 1); (Back, row 2 v4 2)] [row 2 v4 0] (row 2 v4 1) (row 2 v4 3)).
  - apply (dropped_back [(Back, row 2 v4 0); (Back, row 2 v4 1)] [row 2 v4 0] (row 2 v4 1) (row 2 v4 2)).
    + apply (added_back [(Back, row 2 v4 0)] [] (row 2 v4 0) (row 2 v4 1)).
      * apply (added_first [] Back). constructor.
      * rewrite row_near. cbn. intro F. inversion F as [|? ? ? ? A _]; subst. revert A. unfold Rabs. destruct Rcase_abs; lra.
    + rewrite row_near. cbn. repeat constructor; unfold Rabs; destruct Rcase_abs; lra.
  - rewrite row_near. cbn. intro F. inversion F as [|? ? ? ? A _]; subst. revert A. unfold Rabs. destruct Rcase_abs; lra.
Qed.
Lemma c86_example : exists H' L, rx_pt_list 4 h4 2 4 (0, 0) = Ok (H', L) /\
  contents H' L [row 2 v4 0; row 2 v4 1; row 2 v4 3] /\ pts_size L = 3.
Proof.
  destruct (c86_path h4 2 4 (0, 0) v4 4 v4_cells eq_refl ltac:(lia) (Nat.le_refl 4)) as (H' & L & R & G & Hi & _).
  destruct (c86_history _ _ _ Hi) as (l & A & C & S & _). rewrite <- (c86_one_answer _ _ v4_added _ A) in C, S.
  exists H', L. auto.
Qed.
(** a copy that outlives changes of its source, with X given and accelerations missing *)
Lemma c86_alloc_copy H nq ntf H1 s : state_alloc H nq ntf = (H1, s) ->
  exists H2 t V, state_clone H1 s = Ok (H2, t) /\ shows H2 t V /\ v_arr V Pdq = Some (repeat (Some 0%R) nq).
Proof.
  intro E. destruct (c86_alloc _ _ _ _ _ E) as (_ & _ & _ & S).
  destruct (c86_clone _ _ _ S) as (H2 & t & C & _ & _ & _ & T & _). exists H2, t. eexists. split; [exact C|]. split; [exact T|]. reflexivity.
Qed.

Lemma c86_add_q e H L n q v : history e H L -> cells_at H q (map Some v) -> length v = n ->
  exists H' L', pts_add_q H L n q = Ok (H', L') /\ history (e ++ [(Back, joints v)]) H' L'.
Proof.
  intros Hi C LV. destruct (c86_history _ _ _ Hi) as (l & _ & _ & _ & _ & _ & PR).
  assert (S : shows H (mkC n 0 (set_ptr no_ptr Pq (Some q))) (joints v)).
  { split; [now cbn|]. split; [reflexivity|]. intros [| | | | | | | |]; cbn; try exact I. split; [exact C|]. now rewrite map_length. }
  assert (ST : stored (joints v)).
  { intros k cs _. cbn. destruct k; try discriminate. intro E. injection E as <-.
    apply Forall_forall. intros c J. apply in_map_iff in J. destruct J as (x & <- & _). discriminate. }
  destruct (PR _ _ S ST) as [(H' & L' & R & _) _]. exists H', L'. split; [exact R|]. now apply (h_add e H L _ _ _ _ Hi S ST).
Qed.
Lemma c86_add_qutr e H L a E : history e H L -> cells_at H a (map Some E) -> length E = 7 ->
  exists H' L', pts_add_qutr H L a = Ok (H', L') /\ history (e ++ [(Back, pose E)]) H' L'.
Proof.
  intros Hi C LV. destruct (c86_history _ _ _ Hi) as (l & _ & _ & _ & _ & _ & PR).
  assert (S : shows H (mkC 0 0 (set_ptr no_ptr PX (Some a))) (pose E)).
  { split; [reflexivity|]. split; [reflexivity|]. intros [| | | | | | | |]; cbn; try exact I. split; [exact C|]. now rewrite map_length. }
  assert (ST : stored (pose E)).
  { intros k cs _. cbn. destruct k; try discriminate. intro F. injection F as <-.
    apply Forall_forall. intros c J. apply in_map_iff in J. destruct J as (x & <- & _). discriminate. }
  destruct (PR _ _ S ST) as [(H' & L' & R & _) _]. exists H', L'. split; [exact R|]. now apply (h_add e H L _ _ _ _ Hi S ST).
Qed.
