From Coq Require Import ZArith List Bool Reals Lia Lra.
From Verif Require Import SgModel ClModel ShowModel ShowSpec.
Import ListNotations.
Open Scope R_scope.

Lemma nth_put {A} (l : list A) : forall i j x, nth_error (put l i x) j = if Nat.eqb i j then match nth_error l j with Some _ => Some x | None => None end else nth_error l j.
Proof.
  induction l as [|a r IH]; intros [|i] [|j] x; cbn; try reflexivity.
  - now destruct (Nat.eqb i j).
  - apply IH.
Qed.
Lemma length_put {A} (l : list A) : forall i x, length (put l i x) = length l.
Proof. induction l as [|a r IH]; intros [|i] x; cbn; auto. Qed.

(** ** Segments *)
Lemma length_segments l : length (segments l) = length l.
Proof. induction l; cbn; auto. Qed.
Lemma nth_segments l : forall j x y, nth_error (segments l) j = Some (x, y) ->
  nth_error l j = Some x /\ (nth_error l (S j) = Some y \/ (length l = S j /\ y = x)).
Proof.
  induction l as [|a r IH]; intros [|j] x y H; cbn in H; try discriminate.
  - injection H as <- <-. split; [reflexivity|]. destruct r; cbn; auto.
  - destruct (IH j x y H) as [H1 H2]. split; [exact H1|]. cbn [nth_error length]. destruct H2 as [H2|[H2 H3]]; auto.
Qed.

Lemma between_self u x : between u x x = x.
Proof.
  unfold between. induction x as [|a r IH]; cbn; [reflexivity|]. rewrite IH. f_equal. cbn. ring.
Qed.
Lemma between_0 : forall x y, length x = length y -> between 0 x y = x.
Proof.
  unfold between. induction x as [|a r IH]; intros [|b s] H; cbn; try discriminate; [reflexivity|].
  rewrite IH by (cbn in H; lia). f_equal. cbn. ring.
Qed.

(** ** Conversions *)
Lemma int_part_nat i u : 0 <= u < 1 -> Int_part (INR i + u) = Z.of_nat i.
Proof.
  intros H. unfold Int_part. assert (up (INR i + u) = Z.of_nat i + 1)%Z; [|lia].
  symmetry. apply tech_up; rewrite plus_IZR, <- INR_IZR_INZ; lra.
Qed.
Lemma to_size_nat i u : 0 <= u < 1 -> to_size (INR i + u) = Val i.
Proof.
  intros H. pose proof (pos_INR i). unfold to_size. destruct (Rlt_dec (-1) (INR i + u)); [|lra].
  destruct (Rlt_dec (INR i + u) 0); [lra|]. rewrite int_part_nat by exact H. now rewrite Nat2Z.id.
Qed.
Lemma to_size_ge n x : INR n <= x -> exists i, to_size x = Val i /\ (n <= i)%nat.
Proof.
  intros H. pose proof (pos_INR n). unfold to_size. destruct (Rlt_dec (-1) x); [|lra].
  destruct (Rlt_dec x 0); [lra|]. eexists. split; [reflexivity|].
  destruct (base_Int_part x) as [H1 H2]. assert (Z.of_nat n < Int_part x + 1)%Z; [|lia].
  apply lt_IZR. rewrite plus_IZR, <- INR_IZR_INZ. lra.
Qed.

Section GRAPHS.
Variable cc : nat -> nat.

Definition elt_ok (e : mpelt) (x : nat * list (list R)) : Prop :=
  me_sg e = fst x /\ me_n e = length (snd x) /\ me_path e = concat (snd x) /\
  forall y, In y (snd x) -> length y = cc (fst x).
Definition seq_ok (s : mpseq) (l : plans) : Prop :=
  Forall2 elt_ok (ms_data s) l /\ ms_n s = length (timeline l).

Lemma timeline_app l x : timeline (l ++ [x]) = timeline l ++ map (fun s => (fst x, s)) (segments (snd x)).
Proof. unfold timeline. rewrite flat_map_app. cbn. now rewrite app_nil_r. Qed.

Lemma concat_length (ps : list (list R)) m : (forall y, In y ps -> length y = m) -> length (concat ps) = (m * length ps)%nat.
Proof.
  induction ps as [|x r IH]; intros H; cbn; [lia|]. rewrite app_length, IH, (H x) by auto using in_eq, in_cons.
  lia. 
Qed.

Lemma col_concat m : forall ps j x, (forall y, In y ps -> length y = m) -> nth_error ps j = Some x -> col (concat ps) m j = Val x.
Proof.
  intros ps j x H E. unfold col. rewrite (concat_length ps m H).
  assert (J : (j < length ps)%nat) by (apply nth_error_Some; congruence).
  assert (Q : (m * j + m <=? m * length ps)%nat = true) by (apply Nat.leb_le; nia). rewrite Q. f_equal.
  clear Q J. revert j E. induction ps as [|y r IH]; intros [|j] E; cbn in E; try discriminate.
  - injection E as ->. rewrite Nat.mul_0_r. cbn. rewrite firstn_app, (H x) by now left.
    rewrite Nat.sub_diag. cbn. rewrite app_nil_r. rewrite <- (H x) by now left. apply firstn_all.
  - cbn [concat]. rewrite Nat.mul_succ_r, Nat.add_comm, skipn_app, (H y) by now left.
    replace (m + m * j - m)%nat with (m * j)%nat by lia.
    rewrite skipn_all2 by (rewrite (H y) by (now left); lia). cbn. apply IH; [|exact E]. intros z Hz. apply H. now right.
Qed.

Lemma nth_app_lt {A} (l r : list A) i : (i < length l)%nat -> nth_error (l ++ r) i = nth_error l i.
Proof. apply nth_error_app1. Qed.

Lemma find_ok es l : Forall2 elt_ok es l -> forall i0 off left,
  (off <= i0 < off + length (timeline l))%nat ->
  exists g ps off', find_elt es i0 off left = ((Some g, length ps, Some (concat ps)), off') /\
    (off' <= i0 < off' + length ps)%nat /\ (forall y, In y ps -> length y = cc g) /\
    nth_error (timeline l) (i0 - off) = option_map (fun s => (g, s)) (nth_error (segments ps) (i0 - off')).
Proof.
  induction 1 as [|e x es l He _ IH]; intros i0 off left Hi; cbn [timeline flat_map] in *; [cbn in Hi; lia|].
  destruct He as (E1 & E2 & E3 & E4). cbn [find_elt]. rewrite E1, E2, E3.
  rewrite app_length, map_length, length_segments in Hi. fold (timeline l) in *.
  destruct (Nat.ltb_spec i0 (off + length (snd x))) as [Q|Q].
  - exists (fst x), (snd x), off. split; [reflexivity|]. split; [lia|]. split; [exact E4|].
    rewrite nth_app_lt by (rewrite map_length, length_segments; lia). now rewrite nth_error_map.
  - destruct (IH i0 (off + length (snd x))%nat (Some (fst x), length (snd x), Some (concat (snd x)))) as (g & ps & off' & F1 & F2 & F3 & F4); [lia|].
    exists g, ps, off'. split; [exact F1|]. split; [exact F2|]. split; [exact F3|]. rewrite <- F4.
    rewrite nth_error_app2 by (rewrite map_length, length_segments; lia). rewrite map_length, length_segments. f_equal. lia.
Qed.

Lemma display_1 t0 now g ps off i u x y :
  now - t0 = (INR i + u) * (8/10) -> 0 <= u < 1 -> (off <= i)%nat -> (forall z, In z ps -> length z = cc g) ->
  nth_error (segments ps) (i - off) = Some (x, y) ->
  plan_display_1 cc t0 now (Some g) (length ps) (Some (concat ps)) off = Val (g, between u x y).
Proof.
  intros Ht Hu Ho Hl Hs. unfold plan_display_1. unfold dt.
  replace ((now - t0) / (8/10)) with (INR i + u) by (rewrite Ht; field). rewrite to_size_nat by exact Hu. cbn [obind].
  destruct (Nat.ltb_spec i off) as [Q|_]; [lia|]. destruct (nth_segments _ _ _ _ Hs) as [Hx Hy].
  assert (J : (i - off < length ps)%nat) by (apply nth_error_Some; congruence).
  destruct (Nat.eqb_spec (length ps) (S (i - off))) as [E|NE].
  - assert (y = x) as ->.
    { destruct Hy as [Hy|[_ Hy]]; [|exact Hy]. assert (S (i - off) < length ps)%nat by (apply nth_error_Some; congruence). lia. }
    destruct (Nat.ltb_spec (i - off) (length ps)); [cbn [andb]|lia]. rewrite (col_concat _ _ _ _ Hl Hx). cbn [obind].
    rewrite Nat.eqb_refl. cbn [orb]. now rewrite between_self.
  - destruct Hy as [Hy|[Q _]]; [|lia].
    destruct (Nat.ltb_spec (i - off) (length ps)); [|lia]. destruct (Nat.ltb_spec (S (i - off)) (length ps)); [cbn [andb]|lia].
    rewrite (col_concat _ _ _ _ Hl Hx), (col_concat _ _ _ _ Hl Hy). cbn [obind].
    destruct (Nat.eqb_spec (i - off) (S (i - off))) as [Q|_]; [lia|]. cbn [orb].
    destruct (Nat.eqb_spec (cc g) 0) as [Z|NZ].
    + assert (x = []) as -> by (apply length_zero_iff_nil; rewrite <- Z; apply Hl; eapply nth_error_In; eauto).
      reflexivity.
    + do 2 f_equal. unfold lerp, between. f_equal. 
      match goal with |- ?f = ?h => cut (forall (r s : R), r = s -> (fun ab : R * R => fst ab + r * (snd ab - fst ab)) = (fun ab => fst ab + s * (snd ab - fst ab))) end.
      * intros C. apply C. rewrite S_INR, Ht. rewrite minus_INR by exact Ho.
        match goal with |- _ / ?d = _ => replace d with (8/10) by ring end. field.
      * intros r s ->. reflexivity.
Qed.

Lemma seq_display s l t0 now g q : seq_ok s l -> at_time l (now - t0) g q -> mp_seq_display cc s t0 now = Val (t0, (g, q)).
Proof.
  intros [HF HN] (i & u & x & y & Ht & Hu & Hn & ->).
  assert (Hi : (i < length (timeline l))%nat) by (apply nth_error_Some; congruence).
  unfold mp_seq_display, dt. replace ((now - t0) / (8/10)) with (INR i + u) by (rewrite Ht; field).
  rewrite to_size_nat by exact Hu. cbn [obind].
  destruct (find_ok _ _ HF i O (None, O, None)) as (g' & ps & off & F1 & F2 & F3 & F4); [lia|]. rewrite F1.
  unfold mp_points. rewrite HN. destruct (Nat.ltb_spec (length (timeline l)) (S i)) as [Q|_]; [lia|].
  rewrite Nat.sub_0_r, Hn in F4. destruct (nth_error (segments ps) (i - off)) as [[x' y']|] eqn:Es; [|discriminate].
  cbn in F4. injection F4 as <- <- <-. rewrite (display_1 t0 now g ps off i u x y); auto. lia.
Qed.

Lemma seq_again s g x r l t0 now : seq_ok s ((g, x :: r) :: l) -> over ((g, x :: r) :: l) (now - t0) ->
  mp_seq_display cc s t0 now = Val (now, (g, x)).
Proof.
  intros [HF HN] Ho. unfold over in Ho. unfold mp_seq_display, dt.
  destruct (to_size_ge (length (timeline ((g, x :: r) :: l))) ((now - t0) / (8/10))) as (i & Ei & Hi).
  { apply Rmult_le_reg_r with (8/10); [lra|]. unfold Rdiv at 2. rewrite Rmult_assoc, Rinv_l by lra. lra. }
  rewrite Ei. cbn [obind]. destruct (find_elt (ms_data s) i 0 (None, O, None)) as [[[g' n'] p'] off'].
  unfold mp_points. rewrite HN. destruct (Nat.ltb_spec (length (timeline ((g, x :: r) :: l))) (S i)) as [_|Q]; [|lia].
  inversion HF as [|e y es l' He HF' Ed]. subst. destruct He as (E1 & E2 & E3 & E4).
  unfold mp_elt, mp_count. rewrite <- Ed. cbn [length Nat.leb nth_error from bind lift obind]. rewrite E1, E2, E3. cbn [fst snd] in *.
  rewrite (display_1 now now g (x :: r) 0 0 0 x (match r with z :: _ => z | [] => x end)); try lra; try lia; auto.
  - cbn [obind]. do 3 f_equal. destruct r as [|z r]; [apply between_self|]. apply between_0.
    rewrite (E4 x), (E4 z); auto using in_eq, in_cons.
  - cbn [INR]. lra.
Qed.

(** ** The simulation *)
Definition disp_ok (d : disp) (a : adisp) : Prop :=
  match d, a with
  | Default c, ADefault c' => c = c'
  | Seq t p o, APlay s p' o' => t = s /\ p = p' /\ o = o'
  | User k d, AUser k' d' => k = k' /\ d = d'
  | Gone, AGone => True
  | _, _ => False
  end.
Definition contexts (a : adisp) : nat := match a with ADefault (Some _) | APlay _ _ _ => 1 | _ => 0 end.
Definition entry_ok (x : option mpseq) (y : option (bool * plans)) : Prop :=
  match x, y with Some s, Some (_, l) => seq_ok s l | None, None => True | _, _ => False end.

Definition Rel (w : win) (a : ast) : Prop :=
  disp_ok (w_disp w) (a_disp a) /\ w_q w = a_q a /\ w_dx w = a_dx a /\
  Forall2 entry_ok (w_seqs w) (a_seqs a) /\
  w_cxs w = contexts (a_disp a) /\
  w_qs w = (a_lost a + match a_q a with Some _ => 1 | None => 0 end)%nat /\
  w_elts w = a_elts a /\ w_log w = a_log a /\
  (forall c, a_disp a = ADefault (Some c) -> w_updated w = true) /\
  (forall s p o, a_disp a = APlay s p o -> (p < length (a_seqs a))%nat /\ (o = true -> exists l, a_seq a p = Some (false, l))).

Lemma F2_nth {A B} (P : A -> B -> Prop) l r : Forall2 P l r -> forall i,
  match nth_error l i, nth_error r i with Some x, Some y => P x y | None, None => True | _, _ => False end.
Proof. induction 1; intros [|i]; cbn; auto. apply IHForall2. Qed.
Lemma F2_put {A B} (P : A -> B -> Prop) l r : Forall2 P l r -> forall i x y, P x y -> Forall2 P (put l i x) (put r i y).
Proof. induction 1; intros [|i] p q Hp; cbn; constructor; auto. Qed.
Lemma F2_app1 {A B} (P : A -> B -> Prop) l r x y : Forall2 P l r -> P x y -> Forall2 P (l ++ [x]) (r ++ [y]).
Proof. intros H Hp. apply Forall2_app; auto. Qed.

Lemma rel_seq w a p b l : Forall2 entry_ok (w_seqs w) (a_seqs a) -> a_seq a p = Some (b, l) -> exists s, seq_at w p = Val s /\ seq_ok s l.
Proof.
  intros H E. unfold a_seq in E. pose proof (F2_nth _ _ _ H p) as Q. unfold seq_at.
  destruct (nth_error (a_seqs a) p) as [[[b' l']|]|]; try discriminate. injection E as -> ->.
  destruct (nth_error (w_seqs w) p) as [[s|]|]; cbn in Q; try contradiction. now exists s.
Qed.

Lemma append_ok s l g n src ps : seq_ok s l -> points cc g n src ps -> 
  exists s', mp_append s g (cc g) n src = Ok s' /\ seq_ok s' (l ++ [(g, ps)]).
Proof.
  intros [H1 H2] (Hn & Hl & r & ->). unfold mp_append.
  assert (LC : length (concat ps) = (cc g * n)%nat) by (rewrite <- Hn; now apply concat_length).
  destruct (Nat.ltb_spec (length (concat ps ++ r)) (cc g * n)) as [Q|_]; [rewrite app_length in Q; lia|].
  eexists. split; [reflexivity|]. split; cbn.
  - apply F2_app1; [exact H1|]. cbn. split; [reflexivity|]. split; [now symmetry|]. split; [|exact Hl].
    cbn. rewrite <- LC, firstn_app, Nat.sub_diag, firstn_all. cbn. now rewrite app_nil_r.
  - rewrite timeline_app, app_length, map_length. cbn. rewrite length_segments. lia.
Qed.

Lemma leave_ok w a d d' w1 : Rel w a -> a_disp a <> AGone -> disp_ok d d' ->
  (* after allocation of a context *)
  w1 = add_cx w (contexts d' + w_cxs w)%nat -> (forall c, d' = ADefault (Some c) -> w_updated w = true) ->
  (forall s p o, d' = APlay s p o -> (p < length (a_seqs a))%nat /\ (o = true -> exists l, a_seq a p = Some (false, l) /\ forall s0 o, a_disp a <> APlay s0 p o)) ->
  exists w', set_display w1 d = Val w' /\ Rel w' (leave a d').
Proof.
  intros (R1 & R2 & R3 & R4 & R5 & R6 & R7 & R8 & R9 & R10) Hg Hd -> Hnd Hown. unfold set_display, destroy_cx. cbn [w_disp add_cx].
  destruct (w_disp w) as [c|t0 p o|k dd|] eqn:Ew; destruct (a_disp a) as [c'|s' p' o'|k' dd'|] eqn:Ea; cbn in R1; try contradiction; try congruence.
  - subst c'. destruct c as [c|]; cbn [obind]; (eexists; split; [reflexivity|]); unfold leave; rewrite Ea;
      (split; [exact Hd|]; split; [exact R2|]; split; [exact R3|]; split; [exact R4|];
       split; [cbn; rewrite R5; cbn; lia|]; split; [exact R6|]; split; [exact R7|]; split; [exact R8|]; split;
       [exact Hnd|]; cbn; intros s p o0 Q; destruct (Hown s p o0 Q) as (HP & HO); split; [exact HP|]; intros Q'; destruct (HO Q') as (l & Hl & _); exists l; exact Hl).
  - destruct R1 as (-> & -> & ->). destruct o'.
    + destruct (R10 s' p' true eq_refl) as (_ & RX). destruct (RX eq_refl) as (l & Hl). destruct (rel_seq w a p' _ _ R4 Hl) as (sq & Hs & _).
      unfold seq_destroy. unfold seq_at in *. cbn [w_seqs add_cx]. destruct (nth_error (w_seqs w) p') as [[sq'|]|]; try discriminate. cbn [obind].
      eexists. split; [reflexivity|]. unfold leave. rewrite Ea.
      split; [exact Hd|]. split; [exact R2|]. split; [exact R3|].
      split; [cbn; apply F2_put; [exact R4|exact I]|].
      split; [cbn; rewrite R5; cbn; lia|]. split; [exact R6|]. split; [exact R7|]. split; [exact R8|].
      split; [exact Hnd|]. cbn. intros s p o0 Q. destruct (Hown s p o0 Q) as (HP & HO). split; [change (@repl) with (@put); rewrite length_put; exact HP|].
      intros Q'. destruct (HO Q') as (l' & Hl' & Hne). exists l'.
      unfold a_seq in *. cbn. change (@repl) with (@put); rewrite nth_put. destruct (Nat.eqb_spec p' p) as [->|_]; [|exact Hl']. exfalso. now apply (Hne s' true).
    + cbn [obind]. eexists. split; [reflexivity|]. unfold leave. rewrite Ea.
      split; [exact Hd|]. split; [exact R2|]. split; [exact R3|]. split; [exact R4|].
      split; [cbn; rewrite R5; cbn; lia|]. split; [exact R6|]. split; [exact R7|]. split; [exact R8|].
      split; [exact Hnd|]. cbn. intros s p o0 Q. destruct (Hown s p o0 Q) as (HP & HO). split; [exact HP|]. intros Q'. destruct (HO Q') as (l' & Hl' & _). now exists l'.
  - destruct R1 as (-> & ->). destruct dd'; cbn [obind]; (eexists; split; [reflexivity|]); unfold leave; rewrite Ea;
      (split; [exact Hd|]; split; [exact R2|]; split; [exact R3|]; split; [exact R4|];
       split; [cbn; rewrite R5; cbn; lia|]; split; [exact R6|]; split; [exact R7|]; split; [cbn; rewrite R8; reflexivity|]; split;
       [exact Hnd|]; cbn; intros s p o0 Q; destruct (Hown s p o0 Q) as (HP & HO); split; [exact HP|]; intros Q'; destruct (HO Q') as (l & Hl & _); exists l; exact Hl).
Qed.

Lemma rel_updated w a : Rel w a -> Rel (set_updated w) a.
Proof.
  intros (R1 & R2 & R3 & R4 & R5 & R6 & R7 & R8 & R9 & R10). repeat (split; [assumption|]). split; [reflexivity|assumption].
Qed.
Lemma set_display_updated w d : set_display (set_updated w) d = obind (set_display w d) (fun w' => Val (set_updated w')).
Proof.
  unfold set_display, destroy_cx. cbn. destruct (w_disp w) as [[c|]|t p o|k b|]; try reflexivity.
  - destruct o; [|reflexivity]. unfold seq_destroy, seq_at. cbn. destruct (nth_error (w_seqs w) p) as [[x|]|]; reflexivity.
  - destruct b; reflexivity.
Qed.

Lemma step_ok w a c a' x : Rel w a -> effect cc a c a' x -> exists w', step cc w c = Val (w', x) /\ Rel w' a'.
Proof.
  intros HR He. pose proof HR as (R1 & R2 & R3 & R4 & R5 & R6 & R7 & R8 & R9 & R10).
  destruct He as [|p g n src ps l Hs Hp|p l Hs Hd|g sub Hg|p l Hg Hs|g n src ps Hg Hp|k d Hg|v|n|b|f i t b Hd|k d f i t b Hd|g sub v f i t b Hd Hq Hl Hw
    |s p o i t b Hd|s p o own l g q i t b Hd Hs Ht|s p o own g0 x0 r0 l i t b Hd Hs Ht|Hg]; cbn [step].
  - eexists. split; [reflexivity|]. split; [exact R1|]. split; [exact R2|]. split; [exact R3|].
    split; [apply F2_app1; [exact R4|split; [constructor|reflexivity]]|].
    split; [exact R5|]. split; [exact R6|]. split; [exact R7|]. split; [exact R8|]. split; [exact R9|].
    intros s p o Q. destruct (R10 s p o Q) as (HP & HO). split; [cbn; rewrite app_length; lia|]. intros Q'. destruct (HO Q') as (l & E). exists l. unfold a_seq in *. cbn.
    destruct (nth_error (a_seqs a) p) as [z|] eqn:Ez; [|discriminate]. rewrite nth_error_app1; [now rewrite Ez|apply nth_error_Some; congruence].
  - destruct (rel_seq w a p _ _ R4 Hs) as (sq & E1 & E2). destruct (append_ok _ _ _ _ _ _ E2 Hp) as (sq' & E3 & E4).
    unfold seq_append. rewrite E1. cbn [obind]. rewrite E3. cbn [lift obind quiet].
    eexists. split; [reflexivity|]. split; [exact R1|]. split; [exact R2|]. split; [exact R3|].
    split; [cbn; apply F2_put; [exact R4|exact E4]|].
    split; [exact R5|]. split; [exact R6|]. split; [cbn; now rewrite R7|]. split; [exact R8|]. split; [exact R9|].
    intros s p0 o0 Q. destruct (R10 s p0 o0 Q) as (HP & HO). split; [cbn; change (@repl) with (@put); rewrite length_put; exact HP|].
    intros Q'. destruct (HO Q') as (l0 & E). exists l0. unfold a_seq in *. cbn. change (@repl) with (@put); rewrite nth_put.
    destruct (Nat.eqb_spec p p0) as [->|_]; [congruence|exact E].
  - destruct (rel_seq w a p _ _ R4 Hs) as (sq & E1 & E2). unfold seq_destroy. rewrite E1. cbn [obind quiet].
    eexists. split; [reflexivity|]. split; [exact R1|]. split; [exact R2|]. split; [exact R3|].
    split; [cbn; apply F2_put; [exact R4|exact I]|].
    split; [exact R5|]. split; [exact R6|]. split; [exact R7|]. split; [exact R8|]. split; [exact R9|].
    intros s p0 o0 Q. destruct (R10 s p0 o0 Q) as (HP & HO). split; [cbn; change (@repl) with (@put); rewrite length_put; exact HP|].
    intros Q'. destruct (HO Q') as (l0 & E). exists l0. unfold a_seq in *. cbn. change (@repl) with (@put); rewrite nth_put.
    destruct (Nat.eqb_spec p p0) as [->|_]; [congruence|exact E].
  - (* SetSg *) unfold set_sg.
    set (w1 := set_updated (set_q w (Some (repeat 0 (cc g))) (S (w_qs w)))).
    set (a1 := with_q a (Some (repeat 0 (cc g))) (a_lost a + match a_q a with Some _ => 1 | None => 0 end)).
    assert (HR1 : Rel w1 a1).
    { apply rel_updated. split; [exact R1|]. split; [reflexivity|]. split; [exact R3|]. split; [exact R4|]. split; [exact R5|].
      split; [cbn; rewrite R6; lia|]. split; [exact R7|]. split; [exact R8|]. split; [exact R9|]. exact R10. }
    destruct (leave_ok w1 a1 (Default (Some (g, sub))) (ADefault (Some (g, sub))) (add_cx w1 (S (w_cxs w))) HR1 Hg eq_refl eq_refl) as (w' & E & HR').
    { reflexivity. } { discriminate. }
    exists w'. split; [|exact HR'].
    change (add_cx w1 (S (w_cxs w))) with (set_updated (set_q (add_cx w (S (w_cxs w))) (Some (repeat 0 (cc g))) (S (w_qs w)))) in E.
    rewrite set_display_updated in E. cbn [w_qs add_cx]. rewrite E. reflexivity.
  - unfold set_seq. destruct (leave_ok w a (Seq 0 p false) (APlay 0 p false) _ HR Hg (conj eq_refl (conj eq_refl eq_refl)) eq_refl) as (w' & E & HR').
    { discriminate. } { intros s q o Q. injection Q as _ <- <-. split; [|discriminate]. unfold a_seq in Hs. apply nth_error_Some. destruct (nth_error (a_seqs a) p); congruence. }
    exists w'. split; [|exact HR']. cbn [contexts Nat.add] in E. rewrite E. reflexivity.
  - (* SetPlan *) unfold set_plan. cbn [w_seqs add_cx set_seqs].
    set (p := length (w_seqs w)). assert (PL : p = length (a_seqs a)) by (unfold p; clear - R4; induction R4; cbn; auto).
    destruct (append_ok mp_create [] g n src ps) as (sq & E3 & E4); [split; [constructor|reflexivity]|exact Hp|].
    unfold seq_append, seq_at. cbn [w_seqs add_cx set_seqs]. 
    rewrite nth_error_app2 by (unfold p; lia). unfold p at 1. rewrite Nat.sub_diag. cbn [nth_error obind]. rewrite E3. cbn [lift obind].
    set (w1 := add_elt (set_seqs w (w_seqs w ++ [Some sq]))).
    set (a1 := with_seqs a (a_seqs a ++ [Some (false, [(g, ps)])]) (S (a_elts a))).
    assert (OLD : forall q y, a_seq a q = Some y -> a_seq a1 q = Some y).
    { intros q y E. unfold a_seq in *. cbn. destruct (nth_error (a_seqs a) q) as [z|] eqn:Ez; [|discriminate].
      rewrite nth_error_app1; [now rewrite Ez|apply nth_error_Some; congruence]. }
    assert (HR1 : Rel w1 a1).
    { split; [exact R1|]. split; [exact R2|]. split; [exact R3|]. split; [apply F2_app1; [exact R4|exact E4]|]. split; [exact R5|].
      split; [exact R6|]. split; [cbn; now rewrite R7|]. split; [exact R8|]. split; [exact R9|].
      intros s q o Q. destruct (R10 s q o Q) as (HP & HO). split; [cbn; rewrite app_length; lia|]. intros Q'. destruct (HO Q') as (l & E). exists l. now apply OLD. }
    destruct (leave_ok w1 a1 (Seq 0 p true) (APlay 0 (length (a_seqs a)) true) (add_cx w1 (S (w_cxs w))) HR1 Hg) as (w' & E & HR').
    { cbn. auto. } { reflexivity. } { discriminate. }
    { intros s q o Q. injection Q as _ <- _. split; [cbn; rewrite app_length; cbn; lia|]. intros _. exists [(g, ps)]. split.
      - unfold a_seq. cbn. rewrite nth_error_app2 by lia. rewrite Nat.sub_diag. reflexivity.
      - intros s0 o0 Q. destruct (R10 _ _ _ Q) as [Q' _]. lia. }
    exists w'. split; [|exact HR'].
    assert (PA : forall r (y z : option mpseq), put (r ++ [y]) (length r) z = r ++ [z]).
    { intros r y z. induction r as [|h r IH]; cbn; [reflexivity|]. now rewrite IH. }
    unfold p at 1. rewrite PA. unfold w1 in E. cbn [w_cxs add_cx add_elt set_seqs] in E |- *.
    unfold quiet. change (add_elt (set_seqs (set_seqs (add_cx w (S (w_cxs w))) (w_seqs w ++ [Some mp_create])) (w_seqs w ++ [Some sq])))
      with (add_cx (add_elt (set_seqs w (w_seqs w ++ [Some sq]))) (S (w_cxs w))). rewrite E. reflexivity.
  - destruct (leave_ok w a (User k d) (AUser k d) _ HR Hg (conj eq_refl eq_refl) eq_refl) as (w' & E & HR').
    { discriminate. } { discriminate. }
    exists w'. split; [|exact HR']. cbn [contexts Nat.add] in E. replace (add_cx w (w_cxs w)) with w in E by (destruct w; reflexivity). unfold quiet. rewrite E. reflexivity.
  - eexists. split; [reflexivity|]. split; [exact R1|]. split; [reflexivity|]. split; [exact R3|]. split; [exact R4|]. split; [exact R5|].
    split; [cbn; rewrite R2; destruct (a_q a); cbn in *; lia|]. split; [exact R7|]. split; [exact R8|]. split; [exact R9|]. exact R10.
  - exists w. split; [|exact HR]. unfold get_config. now rewrite R2.
  - eexists. split; [reflexivity|]. split; [exact R1|]. split; [exact R2|]. split; [reflexivity|]. split; [exact R4|]. split; [exact R5|].
    split; [exact R6|]. split; [exact R7|]. split; [exact R8|]. split; [exact R9|]. exact R10.
  - exists w. split; [|exact HR]. unfold frame. rewrite Hd in R1. destruct (w_disp w) as [c|? ? ?|? ?|]; cbn in R1; try contradiction. now subst c.
  - exists w. split; [|exact HR]. unfold frame. rewrite Hd in R1. destruct (w_disp w) as [c|? ? ?|? ?|]; cbn in R1; try contradiction. now destruct R1 as [-> _].
  - exists w. split; [|exact HR]. unfold frame. pose proof (R9 _ Hd) as HU. rewrite Hd in R1. destruct (w_disp w) as [c|? ? ?|? ?|]; cbn in R1; try contradiction. subst c.
    assert (RQ : read_q w (cc g) = Val (firstn (cc g) v)).
    { unfold read_q. rewrite R2, Hq. apply Nat.leb_le in Hl. now rewrite Hl. }
    assert (WC : (if sub then workspace_control cc w g else Val tt) = Val tt).
    { destruct sub; [|reflexivity]. unfold workspace_control. rewrite RQ. cbn. destruct Hw as [Hw|Hw]; [discriminate|]. now rewrite R3, Hw. }
    rewrite WC. cbn [obind]. rewrite HU, orb_true_r, RQ. reflexivity.
  - unfold frame. rewrite Hd in R1, R5. destruct (w_disp w) as [c|t1 p1 o1|? ?|]; cbn in R1; try contradiction. destruct R1 as (-> & -> & ->).
    eexists. split; [reflexivity|]. split; [cbn; auto|]. split; [exact R2|]. split; [exact R3|]. split; [exact R4|]. split; [exact R5|].
    split; [exact R6|]. split; [exact R7|]. split; [exact R8|]. split; [discriminate|]. cbn. intros s0 p0 o0 Q. injection Q as _ <- <-. apply (R10 s p o Hd).
  - unfold frame. pose proof R1 as R1'. rewrite Hd in R1'. destruct (w_disp w) as [c|t1 p1 o1|? ?|] eqn:Ew; cbn in R1'; try contradiction. destruct R1' as (-> & -> & ->).
    destruct (rel_seq w a p _ _ R4 Hs) as (sq & E1 & E2). rewrite E1. cbn [obind]. rewrite (seq_display _ _ _ _ _ _ E2 Ht). cbn [obind].
    eexists. split; [reflexivity|]. split; [cbn; rewrite Hd; cbn; auto|]. split; [exact R2|]. split; [exact R3|]. split; [exact R4|]. split; [exact R5|].
    split; [exact R6|]. split; [exact R7|]. split; [exact R8|]. split; [exact R9|]. exact R10.
  - unfold frame. pose proof R1 as R1'. rewrite Hd in R1'. destruct (w_disp w) as [c|t1 p1 o1|? ?|] eqn:Ew; cbn in R1'; try contradiction. destruct R1' as (-> & -> & ->).
    destruct (rel_seq w a p _ _ R4 Hs) as (sq & E1 & E2). rewrite E1. cbn [obind]. rewrite (seq_again _ _ _ _ _ _ _ E2 Ht). cbn [obind].
    eexists. split; [reflexivity|]. split; [cbn; auto|]. split; [exact R2|]. split; [exact R3|]. split; [exact R4|]. split; [rewrite Hd in R5; exact R5|].
    split; [exact R6|]. split; [exact R7|]. split; [exact R8|]. split; [discriminate|]. cbn. intros s0 p0 o0 Q. injection Q as _ <- <-. apply (R10 s p o Hd).
  - destruct (leave_ok w a Gone AGone _ HR Hg I eq_refl) as (w' & E & HR').
    { discriminate. } { discriminate. }
    exists w'. split; [|exact HR']. cbn [contexts Nat.add] in E. replace (add_cx w (w_cxs w)) with w in E by (destruct w; reflexivity). unfold quiet. rewrite E. reflexivity.
Qed.

Lemma run_app h1 : forall w h2, run cc w (h1 ++ h2) =
  obind (run cc w h1) (fun '(w', xs) => obind (run cc w' h2) (fun '(w'', ys) => Val (w'', xs ++ ys))).
Proof.
  induction h1 as [|c r IH]; intros w h2; cbn.
  - destruct (run cc w h2) as [| |[w' ys]]; reflexivity.
  - destruct (step cc w c) as [| |[w1 x]]; cbn; try reflexivity. rewrite IH.
    destruct (run cc w1 r) as [| |[w2 xs]]; cbn; try reflexivity. destruct (run cc w2 h2) as [| |[w3 ys]]; reflexivity.
Qed.

Lemma rel_start : Rel start a_start.
Proof.
  split; [reflexivity|]. split; [reflexivity|]. split; [reflexivity|]. split; [constructor|]. split; [reflexivity|].
  split; [reflexivity|]. split; [reflexivity|]. split; [reflexivity|]. split; discriminate.
Qed.

Lemma run_rel h a xs : meaning cc h a xs -> exists w, run cc start h = Val (w, xs) /\ Rel w a.
Proof.
  induction 1 as [|h a xs c a' x _ (w & E & HR) He].
  - exists start. split; [reflexivity|exact rel_start].
  - destruct (step_ok w a c a' x HR He) as (w' & E' & HR'). exists w'. split; [|exact HR'].
    rewrite run_app, E. cbn. rewrite E'. reflexivity.
Qed.

Theorem shows h a xs : meaning cc h a xs -> exists w, run cc start h = Val (w, xs).
Proof. intros H. destruct (run_rel h a xs H) as (w & E & _). now exists w. Qed.

Theorem resources h a xs w : meaning cc h a xs -> run cc start h = Val (w, xs) ->
  w_cxs w = match a_disp a with ADefault (Some _) | APlay _ _ _ => 1%nat | _ => 0%nat end /\
  w_log w = a_log a /\
  w_qs w = (a_lost a + match a_q a with Some _ => 1 | None => 0 end)%nat /\
  w_elts w = a_elts a /\
  (forall p, (exists s, nth_error (w_seqs w) p = Some (Some s)) <-> a_seq a p <> None).
Proof.
  intros H E. destruct (run_rel h a xs H) as (w' & E' & R1 & R2 & R3 & R4 & R5 & R6 & R7 & R8 & _).
  assert (w' = w) by congruence. subst w'. repeat (split; [assumption|]). intros p. pose proof (F2_nth _ _ _ R4 p) as Q. unfold a_seq.
  destruct (nth_error (w_seqs w) p) as [[s|]|], (nth_error (a_seqs a) p) as [[[b l]|]|]; cbn in Q; try contradiction; split; intros Z;
    try (destruct Z; discriminate); try congruence; eauto.
Qed.
End GRAPHS.

(** ** The timeline *)
Lemma timeline_length p : length (timeline p) = fold_right (fun e n => (length (snd e) + n)%nat) O p.
Proof. induction p as [|e r IH]; cbn; [reflexivity|]. rewrite app_length, map_length, length_segments. f_equal. exact IH. Qed.

Theorem playback p t : 0 <= t -> over p t \/ exists g q, at_time p t g q.
Proof.
  intros Ht. set (n := Z.to_nat (Int_part (t / (8/10)))). set (u := frac_part (t / (8/10))).
  assert (T0 : 0 <= t / (8/10)) by (apply Rmult_le_pos; lra).
  destruct (base_fp (t / (8/10))) as [F1 F2].
  assert (IP : (0 <= Int_part (t / (8/10)))%Z).
  { destruct (base_Int_part (t / (8/10))) as [_ Q]. assert (-1 < Int_part (t / (8/10)))%Z; [|lia]. apply lt_IZR. lra. }
  assert (E : t = (INR n + u) * (8/10)).
  { unfold n, u, frac_part. rewrite INR_IZR_INZ, Z2Nat.id by exact IP. field. }
  destruct (Nat.lt_ge_cases n (length (timeline p))) as [Q|Q].
  - right. destruct (nth_error (timeline p) n) as [[g [x y]]|] eqn:En; [|apply nth_error_None in En; lia].
    exists g, (between u x y), n, u, x, y. split; [exact E|]. split; [unfold u; lra|]. auto.
  - left. unfold over. apply le_INR in Q. rewrite E. unfold u. nra.
Qed.

Theorem playback_unique p t g q g' q' : at_time p t g q -> at_time p t g' q' -> g = g' /\ q = q' /\ ~ over p t.
Proof.
  intros (i & u & x & y & E1 & E2 & E3 & ->) (j & v & x' & y' & F1 & F2 & F3 & ->).
  assert (EQ : INR i + u = INR j + v) by lra.
  assert (i = j).
  { destruct (Nat.lt_trichotomy i j) as [Q|[Q|Q]]; [|exact Q|]; apply Nat.le_succ_l, le_INR in Q; rewrite S_INR in Q; lra. }
  subst j. assert (u = v) by lra. subst v. rewrite E3 in F3. injection F3 as -> -> ->. split; [reflexivity|]. split; [reflexivity|].
  unfold over. assert (Q : (i < length (timeline p))%nat) by (apply nth_error_Some; congruence).
  apply Nat.le_succ_l, le_INR in Q. rewrite S_INR in Q. nra.
Qed.

(** ** What goes wrong *)
Theorem empty_first_stops :
  run (fun _ => 1%nat) start [SeqNew; SeqAppend 0 0 0 []; SeqAppend 0 0 1 [5]; SetSeq 0; Frame true 0 0 true; Frame false 0 0 true; Frame false 0 (8/10) true] = Stop.
Proof.
  assert (Z0 : to_size ((0 - 0) / dt) = Val 0%nat).
  { replace ((0 - 0) / dt) with (INR 0 + 0) by (unfold dt; cbn; field). apply to_size_nat. lra. }
  assert (Z1 : to_size ((8/10 - 0) / dt) = Val 1%nat).
  { replace ((8/10 - 0) / dt) with (INR 1 + 0) by (unfold dt; cbn; field). apply to_size_nat. lra. }
  assert (Z2 : to_size ((8/10 - 8/10) / dt) = Val 0%nat).
  { replace ((8/10 - 8/10) / dt) with (INR 0 + 0) by (unfold dt; cbn; field). apply to_size_nat. lra. }
  cbn -[to_size dt Rdiv Rminus]. unfold mp_seq_display. rewrite Z0. cbn -[to_size dt Rdiv Rminus]. unfold plan_display_1 at 1. rewrite Z0.
  cbn -[to_size dt Rdiv Rminus]. unfold mp_seq_display. rewrite Z1. cbn -[to_size dt Rdiv Rminus]. unfold plan_display_1. rewrite Z2. reflexivity.
Qed.

Theorem short_config_ub : run (fun _ => 2%nat) start [SetSg 0 false; SetConfig [1]; Frame true 0 0 true] = Undef.
Proof. reflexivity. Qed.

Theorem workspace_ub cc g first init now b : run cc start [SetSg g true; Dx true; Frame first init now b] = Undef.
Proof.
  cbn. unfold workspace_control, read_q. cbn. rewrite repeat_length, Nat.leb_refl. reflexivity.
Qed.

Theorem config_leak cc g : exists a xs w, meaning cc [SetSg g false; SetSg g false; Destroy] a xs /\
  run cc start [SetSg g false; SetSg g false; Destroy] = Val (w, xs) /\ w_qs w = 2%nat.
Proof.
  assert (M : exists a xs, meaning cc [SetSg g false; SetSg g false; Destroy] a xs /\ a_lost a = 1%nat /\ a_q a <> None).
  { eexists. eexists. split.
    - change [SetSg g false; SetSg g false; Destroy] with ((([] ++ [SetSg g false]) ++ [SetSg g false]) ++ [Destroy]).
      eapply meaning_snoc; [eapply meaning_snoc; [eapply meaning_snoc; [apply meaning_nil|]|]|].
      + apply e_set_sg. discriminate.
      + apply e_set_sg. discriminate.
      + apply e_destroy. discriminate.
    - split; [reflexivity|discriminate]. }
  destruct M as (a & xs & M & HL & HQ). destruct (shows cc _ _ _ M) as (w & E). exists a, xs, w. split; [exact M|]. split; [exact E|].
  destruct (resources cc _ _ _ _ M E) as (_ & _ & Q & _). rewrite Q, HL. destruct (a_q a); [reflexivity|congruence].
Qed.

Theorem elements_leak cc g : exists a xs w, meaning cc [SeqNew; SeqAppend 0 g 0 []; SeqFree 0] a xs /\
  run cc start [SeqNew; SeqAppend 0 g 0 []; SeqFree 0] = Val (w, xs) /\ (forall p, a_seq a p = None) /\ w_elts w = 1%nat.
Proof.
  assert (M : exists a xs, meaning cc [SeqNew; SeqAppend 0 g 0 []; SeqFree 0] a xs /\ (forall p, a_seq a p = None) /\ a_elts a = 1%nat).
  { eexists. eexists. split.
    - change [SeqNew; SeqAppend 0 g 0 []; SeqFree 0] with ((([] ++ [SeqNew]) ++ [SeqAppend 0 g 0 []]) ++ [SeqFree 0]).
      eapply meaning_snoc; [eapply meaning_snoc; [eapply meaning_snoc; [apply meaning_nil|]|]|].
      + apply e_seq_new.
      + eapply e_seq_append with (ps := []); [reflexivity|]. split; [reflexivity|]. split; [intros x []|]. now exists [].
      + eapply e_seq_free; [reflexivity|discriminate].
    - split; [|reflexivity]. intros [|[|p]]; reflexivity. }
  destruct M as (a & xs & M & HP & HL). destruct (shows cc _ _ _ M) as (w & E). exists a, xs, w. split; [exact M|]. split; [exact E|].
  split; [exact HP|]. destruct (resources cc _ _ _ _ M E) as (_ & _ & _ & Q & _). congruence.
Qed.
