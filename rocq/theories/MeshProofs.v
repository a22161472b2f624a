From Coq Require Import ZArith List Bool Reals Lia Lra.
From Verif Require Import GeoModel GeoProofs MeshModel MeshSpec.
Import ListNotations.
Open Scope Z_scope.

Lemma fld_eqb_spec f g : reflect (f = g) (fld_eqb f g).
Proof. destruct f, g; constructor; congruence. Qed.

Definition slot_ok (l : list (option (list Z))) (x : slot) (c : content) : Prop :=
  match c with
  | Nothing => x = mkSlot None None
  | Given v => exists j, x = mkSlot (Some (Lb j)) (Some j) /\ nth_error l j = Some (Some v)
  | Uses i => x = mkSlot (Some (Cl i)) None
  end.
Definition mesh_ok (l : list (option (list Z))) (p : option mesh) (q : option amesh) : Prop :=
  match p, q with
  | None, None => True
  | Some x, Some y => n_vertices x = a_nv y /\ n_indices x = a_ni y /\
                      forall f, slot_ok l (m_slot x f) (a_arr y f)
  | _, _ => False
  end.
Definition own (s : ms) (m : nat) (f : fld) (j : nat) : Prop :=
  exists x, nth_error (mm s) m = Some (Some x) /\ s_data (m_slot x f) = Some j.

Definition Inv (s : ms) (a : as_) (L : list nat) : Prop :=
  cl s = a_cl a /\
  length (mm s) = length (a_mm a) /\
  (forall m p q, nth_error (mm s) m = Some p -> nth_error (a_mm a) m = Some q -> mesh_ok (lb s) p q) /\
  (forall m f j m' f', own s m f j -> own s m' f' j -> m = m' /\ f = f') /\
  NoDup L /\ length L = lost a /\
  (forall j, In j L -> ~ exists m f, own s m f j) /\
  (forall j, live s j <-> In j L \/ exists m f, own s m f j).

Lemma repl_upd {A} (l : list A) : forall i x, repl l i x = upd l i x.
Proof. induction l as [|a r IH]; intros [|i] x; cbn; [reflexivity|reflexivity| |]; rewrite ?IH; reflexivity. Qed.

Lemma inv_mesh s a L m y : Inv s a L -> a_mesh a m = Some y ->
  exists x, mesh_at s m = Ok x /\ nth_error (mm s) m = Some (Some x) /\ nth_error (a_mm a) m = Some (Some y) /\
    n_vertices x = a_nv y /\ n_indices x = a_ni y /\ forall f, slot_ok (lb s) (m_slot x f) (a_arr y f).
Proof.
  intros (_ & E & H & _) Hy. unfold a_mesh in Hy. destruct (nth_error (a_mm a) m) as [[q|]|] eqn:Eq; try discriminate.
  injection Hy as ->. destruct (nth_error (mm s) m) as [p|] eqn:Ep.
  2:{ apply nth_error_None in Ep. apply lt_nth in Eq. lia. }
  specialize (H m p (Some y) Ep Eq). destruct p as [x|]; [|destruct H]. exists x.
  unfold mesh_at. rewrite Ep. destruct H as (Q1 & Q2 & Q3). auto 8.
Qed.

Definition drop_block (s : ms) (d : option nat) (leak : bool) : list (option (list Z)) :=
  match d with Some j => if leak then lb s else upd (lb s) j None | None => lb s end.
Definition fresh (l : list (option (list Z))) (c : content) : list (option (list Z)) :=
  match c with Given v => l ++ [Some v] | _ => l end.
Definition new_slot (n : nat) (c : content) : slot :=
  match c with Nothing => mkSlot None None | Given _ => mkSlot (Some (Lb n)) (Some n) | Uses i => mkSlot (Some (Cl i)) None end.
Definition lose (d : option nat) (leak : bool) (L : list nat) : list nat :=
  match d with Some j => if leak then j :: L else L | None => L end.

Lemma slot_data l x c j : slot_ok l x c -> s_data x = Some j -> exists v, c = Given v /\ s_ptr x = Some (Lb j) /\ nth_error l j = Some (Some v).
Proof.
  destruct c as [|v|i]; cbn.
  - intros -> H. discriminate.
  - intros (k & -> & E) H. cbn in H. injection H as ->. now exists v.
  - intros -> H. discriminate.
Qed.

Lemma length_drop s d leak : length (drop_block s d leak) = length (lb s).
Proof. destruct d as [j|]; cbn; [|reflexivity]. destruct leak; [reflexivity|apply length_upd]. Qed.

Lemma nth_drop s d leak j v : (forall k, d = Some k -> leak = false -> j <> k) ->
  nth_error (lb s) j = Some (Some v) -> nth_error (drop_block s d leak) j = Some (Some v).
Proof.
  intros H E. destruct d as [k|]; cbn; [|exact E]. destruct leak; [exact E|]. rewrite nth_error_upd.
  destruct (Nat.eqb_spec k j); [|exact E]. exfalso. apply (H k); auto.
Qed.
Lemma nth_fresh l c j w : nth_error l j = Some w -> nth_error (fresh l c) j = Some w.
Proof.
  intros H. destruct c; cbn; try exact H. rewrite nth_error_app1; [exact H|now apply lt_nth in H].
Qed.

(** array [f] of mesh [m] gets content [c]; its old copy is freed, or lost if [leak] *)
Lemma set_inv s a L m x y x' y' f c leak :
  Inv s a L -> nth_error (mm s) m = Some (Some x) -> nth_error (a_mm a) m = Some (Some y) ->
  (forall g, m_slot x' g = if fld_eqb f g then new_slot (length (lb s)) c else m_slot x g) ->
  (forall g, a_arr y' g = if fld_eqb f g then c else a_arr y g) ->
  n_vertices x' = a_nv y' -> n_indices x' = a_ni y' ->
  let d := s_data (m_slot x f) in
  Inv (mkMs (cl s) (fresh (drop_block s d leak) c) (upd (mm s) m (Some x')))
      (mkAs (a_cl a) (repl (a_mm a) m (Some y')) (lost a + (if leak && is_given (a_arr y f) then 1 else 0)))
      (lose d leak L).
Proof.
  intros HI Ex Ey Hx' Hy' Hn1 Hn2 d. pose proof HI as (H1 & H2 & H3 & H4 & H5 & H6 & H7 & H8).
  pose proof (H3 m _ _ Ex Ey) as Hm. cbn in Hm. destruct Hm as (_ & _ & Hs).
  set (N := length (lb s)). set (l' := fresh (drop_block s d leak) c).
  assert (OD : forall j, d = Some j -> own s m f j) by (intros j Hj; exists x; now split).
  assert (LT : forall m1 f1 j, own s m1 f1 j -> (j < N)%nat).
  { intros m1 f1 j (x1 & E1 & E2). destruct (nth_error (a_mm a) m1) as [q|] eqn:Eq.
    2:{ apply nth_error_None in Eq. apply lt_nth in E1. lia. }
    specialize (H3 m1 _ _ E1 Eq). destruct q as [y1|]; [|destruct H3]. destruct H3 as (_ & _ & Q).
    destruct (slot_data _ _ _ _ (Q f1) E2) as (v & _ & _ & Q2). now apply lt_nth in Q2. }
  (* owners afterwards *)
  set (s' := mkMs (cl s) l' (upd (mm s) m (Some x'))).
  assert (OW : forall m1 f1 j, own s' m1 f1 j <->
             (m1 = m /\ f1 = f /\ j = N /\ is_given c = true) \/ (own s m1 f1 j /\ ~ (m1 = m /\ f1 = f))).
  { intros m1 f1 j. unfold own. cbn. rewrite nth_error_upd. destruct (Nat.eqb_spec m m1) as [<-|Nm].
    - rewrite Ex. split.
      + intros (z & Ez & Ed). injection Ez as <-. rewrite Hx' in Ed. destruct (fld_eqb_spec f f1) as [<-|Nf].
        * left. destruct c; cbn in Ed; try discriminate. injection Ed as <-. auto.
        * right. split; [exists x; auto|]. intros [_ Q]. congruence.
      + intros [(_ & -> & -> & G)|[(z & Ez & Ed) Nn]].
        * exists x'. split; [reflexivity|]. rewrite Hx'. destruct (fld_eqb_spec f f); [|congruence].
          destruct c; try discriminate. reflexivity.
        * injection Ez as <-. exists x'. split; [reflexivity|]. rewrite Hx'. destruct (fld_eqb_spec f f1) as [<-|]; [|exact Ed].
          exfalso. apply Nn. auto.
    - split.
      + intros (z & Ez & Ed). right. split; [exists z; auto|]. intros [Q _]. congruence.
      + intros [(Q & _)|[(z & Ez & Ed) _]]; [congruence|]. exists z. auto. }
  assert (KEEP : forall j v, (j < N)%nat -> (forall k, d = Some k -> leak = false -> j <> k) ->
            nth_error (lb s) j = Some (Some v) -> nth_error l' j = Some (Some v)).
  { intros j v Hj Hk E. apply nth_fresh. now apply nth_drop. }
  assert (NEW : is_given c = true -> exists v, c = Given v /\ nth_error l' N = Some (Some v)).
  { destruct c as [|v|i]; try discriminate. intros _. exists v. split; [reflexivity|]. unfold l'. cbn.
    rewrite nth_error_app2 by (rewrite length_drop; unfold N; lia). rewrite length_drop. unfold N. rewrite Nat.sub_diag. reflexivity. }
  repeat split.
  - exact H1.
  - cbn. rewrite length_upd, repl_upd, length_upd. exact H2.
  - intros m1 p q Ep Eq. cbn in Ep, Eq. rewrite nth_error_upd in Ep. rewrite repl_upd, nth_error_upd in Eq.
    destruct (Nat.eqb_spec m m1) as [<-|Nm].
    + rewrite Ex in Ep. rewrite Ey in Eq. injection Ep as <-. injection Eq as <-. cbn. split; [exact Hn1|]. split; [exact Hn2|].
      intros g. rewrite Hx', Hy'. destruct (fld_eqb_spec f g) as [<-|Nf].
      * destruct c as [|v|i]; cbn; try reflexivity. destruct (NEW eq_refl) as (w & Ew & En). injection Ew as <-.
        exists N. split; [reflexivity|exact En].
      * specialize (Hs g). destruct (a_arr y g) as [|v|i] eqn:Eg; cbn in Hs |- *; try exact Hs.
        destruct Hs as (j & Ej & Hj). exists j. split; [exact Ej|]. apply KEEP; [now apply lt_nth in Hj| |exact Hj].
        intros k Ek _ ->. assert (O1 : own s m g k) by (exists x; rewrite Ej; auto).
        destruct (H4 _ _ _ _ _ O1 (OD k Ek)) as [_ Q]. congruence.
    + specialize (H3 m1 p q Ep Eq). destruct p as [x1|], q as [y1|]; cbn in H3 |- *; try exact H3.
      destruct H3 as (Q1 & Q2 & Q3). split; [exact Q1|]. split; [exact Q2|]. intros g. specialize (Q3 g).
      destruct (a_arr y1 g) as [|v|i] eqn:Eg; cbn in Q3 |- *; try exact Q3.
      destruct Q3 as (j & Ej & Hj). exists j. split; [exact Ej|]. apply KEEP; [now apply lt_nth in Hj| |exact Hj].
      intros k Ek _ ->. assert (O1 : own s m1 g k) by (exists x1; rewrite Ej; auto).
      destruct (H4 _ _ _ _ _ O1 (OD k Ek)) as [Q _]. congruence.
  - apply OW in H. apply OW in H0. destruct H as [(-> & -> & -> & G)|[O1 N1]], H0 as [(-> & -> & E & G')|[O2 N2]]; auto.
    + apply LT in O2. lia.
    + apply LT in O1. lia.
    + now destruct (H4 _ _ _ _ _ O1 O2).
  - apply OW in H. apply OW in H0. destruct H as [(-> & -> & -> & G)|[O1 N1]], H0 as [(-> & -> & E & G')|[O2 N2]]; auto.
    + apply LT in O2. lia.
    + apply LT in O1. lia.
    + now destruct (H4 _ _ _ _ _ O1 O2).
  - unfold lose. destruct d as [j|] eqn:Ed; [|exact H5]. destruct leak; [|exact H5]. constructor; [|exact H5].
    intros Q. apply (H7 j Q). exists m, f. now apply OD.
  - cbn. unfold lose. destruct d as [j|] eqn:Ed.
    + destruct (slot_data _ _ _ _ (Hs f) Ed) as (v & -> & _). destruct leak; cbn; lia.
    + assert (is_given (a_arr y f) = false) as ->.
      { specialize (Hs f). destruct (a_arr y f) as [|v|i]; try reflexivity. destruct Hs as (j & Ej & _).
        unfold d in Ed. rewrite Ej in Ed. discriminate. }
      rewrite andb_false_r. lia.
  - intros j HL (m1 & f1 & O). apply OW in O.
    assert (Q : In j L \/ (d = Some j /\ leak = true)).
    { unfold lose in HL. destruct d as [k|]; [|tauto]. destruct leak; [|tauto]. destruct HL as [->|HL]; auto. }
    destruct O as [(-> & -> & -> & G)|[O1 N1]].
    + destruct Q as [Q|[Q _]].
      * assert (LV : live s N) by (apply H8; auto). destruct LV as [v E]. apply lt_nth in E. unfold N in E. lia.
      * apply OD, LT in Q. lia.
    + destruct Q as [Q|[Q _]]; [apply (H7 j Q); exists m1, f1; exact O1|].
      destruct (H4 _ _ _ _ _ O1 (OD j Q)) as [E1 E2]. apply N1. auto.
  - intros [v E]. cbn in E.
    assert (CASE : (j < N)%nat \/ (j = N /\ is_given c = true)).
    { destruct (Nat.lt_ge_cases j N) as [Q|Q]; [now left|]. right. unfold l' in E. destruct c as [|w|i]; cbn in E.
      - apply lt_nth in E. rewrite length_drop in E. unfold N in Q. lia.
      - apply lt_nth in E. rewrite app_length, length_drop in E. cbn in E. unfold N in *. split; [lia|reflexivity].
      - apply lt_nth in E. rewrite length_drop in E. unfold N in Q. lia. }
    destruct CASE as [Hj|[-> G]].
    + assert (E0 : nth_error (lb s) j = Some (Some v) /\ (forall k, d = Some k -> leak = false -> j <> k)).
      { assert (E1 : nth_error (drop_block s d leak) j = Some (Some v)).
        { unfold l' in E. destruct c; cbn in E; try exact E. rewrite nth_error_app1 in E; [exact E|]. rewrite length_drop. exact Hj. }
        unfold drop_block in E1. destruct d as [k|]; [|split; [exact E1|discriminate]]. destruct leak.
        - split; [exact E1|discriminate].
        - rewrite nth_error_upd in E1. destruct (Nat.eqb_spec k j) as [->|Nk].
          + destruct (nth_error (lb s) j); discriminate.
          + split; [exact E1|]. intros k' Q _. injection Q as <-. congruence. }
      destruct E0 as [E0 NK]. assert (LV : live s j) by (exists v; exact E0). apply H8 in LV.
      destruct LV as [Q|(m1 & f1 & O)].
      * left. unfold lose. destruct d; [destruct leak|]; [right|idtac|idtac]; exact Q.
      * destruct (Nat.eq_dec m1 m) as [->|Nm]; [destruct (fld_eqb_spec f1 f) as [->|Nf]|].
        -- destruct O as (z & Ez & Ed). rewrite Ex in Ez. injection Ez as <-. fold d in Ed. left. unfold lose. rewrite Ed.
           destruct leak; [now left|]. exfalso. now apply (NK j Ed).
        -- right. exists m, f1. apply OW. right. split; [exact O|]. intros [_ Q]. congruence.
        -- right. exists m1, f1. apply OW. right. split; [exact O|]. intros [Q _]. congruence.
    + right. exists m, f. apply OW. left. auto.
  - intros [Q|(m1 & f1 & O)].
    + assert (Q' : In j L \/ (d = Some j /\ leak = true)).
      { unfold lose in Q. destruct d as [k|]; [|tauto]. destruct leak; [|tauto]. destruct Q as [->|Q]; auto. }
      assert (LV : live s j).
      { apply H8. destruct Q' as [Q'|[Q' _]]; [now left|]. right. exists m, f. now apply OD. }
      destruct LV as [v E]. exists v. cbn. apply KEEP; [now apply lt_nth in E| |exact E].
      intros k Ek Lk ->. destruct Q' as [Q'|[_ Q']]; [|congruence]. apply (H7 k Q'). exists m, f. now apply OD.
    + apply OW in O. destruct O as [(-> & -> & -> & G)|[O1 N1]].
      * destruct (NEW G) as (v & _ & E). exists v. exact E.
      * assert (LV : live s j) by (apply H8; right; exists m1, f1; exact O1).
        destruct LV as [v E]. exists v. cbn. apply KEEP; [now apply lt_nth in E| |exact E].
        intros k Ek _ ->. destruct (H4 _ _ _ _ _ O1 (OD k Ek)) as [E1 E2]. apply N1. auto.
Qed.

Lemma free_ok s a L m x y f : Inv s a L -> nth_error (mm s) m = Some (Some x) -> nth_error (a_mm a) m = Some (Some y) ->
  checked_free s (s_data (m_slot x f)) = Ok (mkMs (cl s) (drop_block s (s_data (m_slot x f)) false) (mm s)).
Proof.
  intros (H1 & H2 & H3 & _) Ex Ey. specialize (H3 m _ _ Ex Ey). destruct H3 as (_ & _ & Hs). specialize (Hs f).
  destruct (s_data (m_slot x f)) as [j|] eqn:Ed; cbn.
  - destruct (slot_data _ _ _ _ Hs Ed) as (v & _ & _ & E). unfold lib_free, block. rewrite E. reflexivity.
  - destruct s; reflexivity.
Qed.

Lemma block_client s a L i : Inv s a L -> block (cl s) i = match a_client a i with Some v => Ok v | None => Ub end.
Proof.
  intros (H1 & _). unfold block, a_client. rewrite H1. destruct (nth_error (a_cl a) i) as [[v|]|]; reflexivity.
Qed.

Lemma texel_ok c v : (0 <= c <= 1)%R -> shade c v -> texel c = Ok v.
Proof.
  intros Hc [H1 H2]. unfold texel. destruct (Rlt_dec (-1) (c * 255)) as [_|N]; [|lra].
  destruct (Rlt_dec (c * 255) 256) as [_|N]; [|lra]. destruct (Rlt_dec (c * 255) 0) as [N|_]; [lra|].
  f_equal. unfold Int_part. assert (up (c * 255) = v + 1)%Z; [|lia]. symmetry. apply tech_up; rewrite plus_IZR; lra.
Qed.

Lemma per_ld f : per f = ld f. Proof. reflexivity. Qed.

(** the pointer passed for a source and what it holds *)
Lemma src_ok s a L z : Inv s a L -> source_content a z <> Nothing ->
  exists p, src_ptr s z = Ok p /\
  match source_content a z with
  | Nothing => False
  | Given v => exists j m x y f, p = Lb j /\ nth_error (lb s) j = Some (Some v) /\ z = Of m f /\
       nth_error (mm s) m = Some (Some x) /\ nth_error (a_mm a) m = Some (Some y) /\ s_data (m_slot x f) = Some j
  | Uses i => p = Cl i
  end.
Proof.
  intros HI Hz. destruct z as [i|m f]; cbn in *.
  - exists (Cl i). auto.
  - destruct (a_mesh a m) as [y|] eqn:Ey; [|congruence].
    destruct (inv_mesh _ _ _ _ _ HI Ey) as (x & E1 & E2 & E3 & _ & _ & Hs). rewrite E1. cbn. specialize (Hs f).
    destruct (a_arr y f) as [|v|i]; cbn in Hs; [congruence| |].
    + destruct Hs as (j & Ej & Hj). rewrite Ej. cbn. exists (Lb j). split; [reflexivity|].
      exists j, m, x, y, f. rewrite Ej. auto 8.
    + rewrite Hs. cbn. exists (Cl i). auto.
Qed.

Lemma inv_same s a L s' : cl s' = cl s -> lb s' = lb s -> mm s' = mm s -> Inv s a L -> Inv s' a L.
Proof. destruct s, s'. cbn. intros -> -> ->. auto. Qed.

Lemma inv_client s a L c' : Inv s a L -> Inv (mkMs c' (lb s) (mm s)) (mkAs c' (a_mm a) (lost a)) L.
Proof.
  intros (H1 & H2 & H3 & H4 & H5 & H6 & H7 & H8).
  split; [reflexivity|]. split; [exact H2|]. split; [exact H3|]. split; [exact H4|]. split; [exact H5|]. split; [exact H6|].
  split; [exact H7|exact H8].
Qed.

Lemma step_ok s a L c a' : Inv s a L -> effect a c a' -> exists s' L', step s c = Ok s' /\ Inv s' a' L'.
Proof.
  intros HI He. pose proof HI as (C1 & _). destruct He as [v|i v w Hw|i w Hw| |m f n z y v Hy Hv Hn Hz|m f n z y i Hy Hz|m y c0 c1 c2 c3 v0 v1 v2 v3 Hy R0 R1 R2 R3 S0 S1 S2 S3|m y Hy]; cbn [step].
  - eexists. exists L. split; [reflexivity|]. rewrite C1. apply inv_client; exact HI.
  - rewrite (block_client _ _ _ i HI), Hw. cbn. eexists. exists L. split; [reflexivity|]. rewrite C1.
    apply inv_client; exact HI.
  - rewrite (block_client _ _ _ i HI), Hw. cbn. eexists. exists L. split; [reflexivity|]. rewrite C1.
    apply inv_client; exact HI.
  - (* MNew *) eexists. exists L. split; [reflexivity|]. destruct HI as (H1 & H2 & H3 & H4 & H5 & H6 & H7 & H8).
    assert (OW : forall m f j, own (mkMs (cl s) (lb s) (mm s ++ [Some empty_mesh])) m f j <-> own s m f j).
    { intros m f j. unfold own. cbn. split; intros (x & E1 & E2).
      - destruct (Nat.lt_ge_cases m (length (mm s))) as [Q|Q].
        + rewrite nth_error_app1 in E1 by exact Q. now exists x.
        + rewrite nth_error_app2 in E1 by exact Q. destruct (m - length (mm s))%nat as [|k]; cbn in E1.
          * injection E1 as <-. discriminate.
          * destruct k; discriminate.
      - exists x. split; [|exact E2]. rewrite nth_error_app1; [exact E1|now apply lt_nth in E1]. }
    assert (OX : forall j, (exists m f, own (mkMs (cl s) (lb s) (mm s ++ [Some empty_mesh])) m f j) <-> exists m f, own s m f j).
    { intros j. split; intros (m & f & O); exists m, f; now apply OW. }
    split; [exact H1|]. split; [cbn; rewrite !app_length; cbn; lia|]. split; [|split; [|split; [|split; [|split]]]].
    + intros m p q Ep Eq. cbn in Ep, Eq. destruct (Nat.lt_ge_cases m (length (mm s))) as [Q|Q].
      * rewrite nth_error_app1 in Ep by exact Q. rewrite nth_error_app1 in Eq by lia. now apply H3 with m.
      * rewrite nth_error_app2 in Ep by exact Q. rewrite nth_error_app2 in Eq by lia. rewrite H2 in Ep.
        destruct (m - length (a_mm a))%nat as [|k]; cbn in Ep, Eq.
        -- injection Ep as <-. injection Eq as <-. cbn. auto.
        -- destruct k; discriminate.
    + intros m f j m' f' O1 O2. apply OW in O1. apply OW in O2. eauto.
    + exact H5.
    + exact H6.
    + intros j Q. rewrite OX. now apply H7.
    + intros j. rewrite OX. apply H8.
  - (* MSet copy *)
    destruct (inv_mesh _ _ _ _ _ HI Hy) as (x & E1 & E2 & E3 & N1 & N2 & Hs).
    assert (HZ : source_content a z <> Nothing) by (intros Q; rewrite Q in Hv; discriminate).
    destruct (src_ok _ _ _ _ HI HZ) as (p & Ep & Hp). rewrite Ep. cbn [bind]. unfold mesh_set. rewrite E1. cbn [bind].
    rewrite (free_ok _ _ _ _ _ _ f HI E2 E3). cbn [bind].
    assert (RD : read_n (mkMs (cl s) (drop_block s (s_data (m_slot x f)) false) (mm s)) p (ld f * n) = Ok (firstn (per f * n) v)).
    { unfold read_n, read. cbn. destruct (source_content a z) as [|w|i] eqn:Ez; [congruence| |].
      - cbn in Hv. injection Hv as ->. destruct Hp as (j & m1 & x1 & y1 & f1 & -> & Hj & -> & F1 & F2 & F3).
        unfold block. rewrite (nth_drop s _ false j v); [cbn|intros k Ek _ ->|exact Hj].
        + rewrite <- per_ld. apply Nat.leb_le in Hn. now rewrite Hn.
        + pose proof HI as (_ & _ & _ & H4 & _).
          assert (O1 : own s m1 f1 k) by (exists x1; auto). assert (O2 : own s m f k) by (exists x; auto).
          destruct (H4 _ _ _ _ _ O1 O2) as [-> ->]. specialize (Hz f eq_refl eq_refl).
          destruct (slot_data _ _ _ _ (Hs f) Ek) as (w & Ew & _). rewrite Ew in Hz. discriminate.
      - subst p. cbn in Hv |- *. rewrite (block_client _ _ _ i HI), Hv. cbn. rewrite <- per_ld. apply Nat.leb_le in Hn. now rewrite Hn. }
    rewrite RD. cbn [bind lib_new]. eexists. eexists. split; [reflexivity|].
    unfold put_slot. cbn [cl lb mm]. rewrite length_drop.
    replace (lost a) with (lost a + (if false && is_given (a_arr y f) then 1 else 0))%nat by (cbn; lia).
    apply (set_inv s a L m x y _ _ f (Given (firstn (per f * n) v)) false HI E2 E3).
    + intros g. cbn. destruct (fld_eqb f g); [reflexivity|]. destruct f; reflexivity.
    + intros g. reflexivity.
    + cbn. destruct f; cbn; auto.
    + cbn. destruct f; cbn; auto.
  - (* MSet lend *)
    destruct (inv_mesh _ _ _ _ _ HI Hy) as (x & E1 & E2 & E3 & N1 & N2 & Hs).
    assert (HZ : source_content a z <> Nothing) by (rewrite Hz; discriminate).
    destruct (src_ok _ _ _ _ HI HZ) as (p & Ep & Hp). rewrite Hz in Hp. subst p. rewrite Ep. cbn [bind]. unfold mesh_set. rewrite E1. cbn [bind].
    rewrite (free_ok _ _ _ _ _ _ f HI E2 E3). cbn [bind]. eexists. eexists. split; [reflexivity|].
    unfold put_slot. cbn [cl lb mm].
    replace (lost a) with (lost a + (if false && is_given (a_arr y f) then 1 else 0))%nat by (cbn; lia).
    apply (set_inv s a L m x y _ _ f (Uses i) false HI E2 E3).
    + intros g. cbn. destruct (fld_eqb f g); [reflexivity|]. destruct f; reflexivity.
    + intros g. reflexivity.
    + cbn. destruct f; cbn; auto.
    + cbn. destruct f; cbn; auto.
  - (* MTexture *)
    destruct (inv_mesh _ _ _ _ _ HI Hy) as (x & E1 & E2 & E3 & N1 & N2 & Hs).
    unfold mesh_texture. cbn [texels]. rewrite (texel_ok _ _ R0 S0), (texel_ok _ _ R1 S1), (texel_ok _ _ R2 S2), (texel_ok _ _ R3 S3).
    cbn [bind]. rewrite E1. cbn [bind]. rewrite (free_ok _ _ _ _ _ _ Rgba HI E2 E3). cbn [bind lib_new].
    unfold put_slot at 1. cbn [cl lb mm]. unfold mesh_at. cbn [mm].
    rewrite nth_error_upd, Nat.eqb_refl, E2. cbn [bind]. eexists. eexists. split; [reflexivity|].
    pose proof (set_inv s a L m x y (mkM (fun g => if fld_eqb Rgba g then mkSlot (Some (Lb (length (lb s)))) (Some (length (lb s))) else m_slot x g) (n_vertices x) (n_indices x)) (with_array y Rgba 0 (Given [v0; v1; v2; v3])) Rgba (Given [v0; v1; v2; v3]) false HI E2 E3
      (fun g => eq_refl) (fun g => eq_refl) N1 N2) as HI2. cbv zeta in HI2.
    match type of HI2 with Inv ?s2 ?a2 ?L2 => set (S2' := s2) in *; set (A2 := a2) in *; set (L2' := L2) in * end.
    set (x2 := mkM (fun g => if fld_eqb Rgba g then mkSlot (Some (Lb (length (lb s)))) (Some (length (lb s))) else m_slot x g) (n_vertices x) (n_indices x)) in *.
    assert (F2 : nth_error (mm S2') m = Some (Some x2)).
    { unfold S2'. cbn. rewrite nth_error_upd, Nat.eqb_refl, E2. reflexivity. }
    assert (F3 : nth_error (a_mm A2) m = Some (Some (with_array y Rgba 0 (Given [v0; v1; v2; v3])))).
    { unfold A2. cbn. rewrite repl_upd, nth_error_upd, Nat.eqb_refl, E3. reflexivity. }
    pose proof (set_inv S2' A2 L2' m x2 _ 
      (mkM (fun g => if fld_eqb Uv g then mkSlot (Some (Lb (length (lb S2')))) (Some (length (lb S2'))) else m_slot x2 g) (n_vertices x2) (n_indices x2))
      (with_array (with_array y Rgba 0 (Given [v0; v1; v2; v3])) Uv 0 (Given (repeat 0 (2 * a_nv y))))
      Uv (Given (repeat 0 (2 * a_nv y))) true HI2 F2 F3 (fun g => eq_refl) (fun g => eq_refl) N1 N2) as HI3. cbv zeta in HI3.
    assert (UU : forall (A : Type) (l : list A) i p q, upd (upd l i p) i q = upd l i q).
    { intros A l. induction l as [|b r IH]; intros [|i] p q; cbn; try reflexivity. now rewrite IH. }
    assert (EL : lost A2 = lost a) by (unfold A2; cbn; lia).
    assert (EM : forall z, repl (a_mm A2) m z = repl (a_mm a) m z) by (intros z; exact (UU _ (a_mm a) m _ z)).
    rewrite EL, EM in HI3.
    change (a_arr (with_array y Rgba 0 (Given [v0; v1; v2; v3])) Uv) with (a_arr y Uv) in HI3.
    change (a_cl A2) with (a_cl a) in HI3. cbn [andb] in HI3.
    eapply inv_same; [| | |exact HI3].
    + reflexivity.
    + cbn [lb]. unfold drop_block at 2. rewrite N1.
      destruct (s_data (m_slot x2 Uv)); reflexivity.
    + unfold put_slot. cbn [mm lb cl]. unfold S2'. cbn [mm fresh lb]. rewrite !UU, !length_drop. unfold x2. reflexivity.
  - (* MDestroy *)
    destruct (inv_mesh _ _ _ _ _ HI Hy) as (x & E1 & E2 & E3 & N1 & N2 & Hs).
    unfold mesh_destroy. rewrite E1. cbn [bind].
    assert (CL : forall s0 a0 L0 x0 y0 f0, Inv s0 a0 L0 -> nth_error (mm s0) m = Some (Some x0) -> nth_error (a_mm a0) m = Some (Some y0) ->
       n_vertices x0 = a_nv y0 -> n_indices x0 = a_ni y0 ->
       let x1 := mkM (fun g => if fld_eqb f0 g then mkSlot None None else m_slot x0 g) (n_vertices x0) (n_indices x0) in
       let y1 := mkAm (fun g => if fld_eqb f0 g then Nothing else a_arr y0 g) (a_nv y0) (a_ni y0) in
       Inv (mkMs (cl s0) (drop_block s0 (s_data (m_slot x0 f0)) false) (upd (mm s0) m (Some x1)))
           (mkAs (a_cl a0) (upd (a_mm a0) m (Some y1)) (lost a0)) L0).
    { intros s0 a0 L0 x0 y0 f0 HI0 F1 F2 M1 M2 x1 y1.
      pose proof (set_inv s0 a0 L0 m x0 y0 x1 y1 f0 Nothing false HI0 F1 F2 (fun g => eq_refl) (fun g => eq_refl) M1 M2) as Q.
      cbv zeta in Q. cbn [fresh andb] in Q. rewrite Nat.add_0_r in Q.
      unfold lose in Q. destruct (s_data (m_slot x0 f0)); exact Q. }
    assert (UU : forall (A : Type) (l : list A) i p q, upd (upd l i p) i q = upd l i q).
    { intros A l. induction l as [|b r IH]; intros [|i] p q; cbn; try reflexivity. now rewrite IH. }
    assert (NU : forall (A : Type) (l : list A) i p q, nth_error l i = Some p -> nth_error (upd l i q) i = Some q).
    { intros A l i p q Q. rewrite nth_error_upd, Nat.eqb_refl, Q. reflexivity. }
    (* a state with the same blocks frees the same *)
    assert (FR : forall s1 s2 d, lb s1 = lb s2 -> checked_free s2 d = Ok (mkMs (cl s2) (drop_block s2 d false) (mm s2)) ->
              checked_free s1 d = Ok (mkMs (cl s1) (drop_block s1 d false) (mm s1))).
    { intros s1 s2 d Q. destruct d as [j|]; cbn; [|destruct s1; reflexivity]. unfold lib_free. rewrite Q.
      destruct (block (lb s2) j); cbn; try discriminate. reflexivity. }
    rewrite (free_ok _ _ _ _ _ _ Vertices HI E2 E3). cbn [bind].
    pose proof (CL _ _ _ _ _ Vertices HI E2 E3 N1 N2) as I1. cbv zeta in I1.
    match type of I1 with Inv ?p ?q _ => set (s1 := p) in *; set (a1 := q) in * end.
    assert (F1 : nth_error (mm s1) m = Some (Some (mkM (fun g => if fld_eqb Vertices g then mkSlot None None else m_slot x g) (n_vertices x) (n_indices x)))) by (apply NU with (1 := E2)).
    assert (G1 : nth_error (a_mm a1) m = Some (Some (mkAm (fun g => if fld_eqb Vertices g then Nothing else a_arr y g) (a_nv y) (a_ni y)))) by (apply NU with (1 := E3)).
    match goal with |- context [checked_free ?t (s_data (m_slot x Normals))] => rewrite (FR t s1 (s_data (m_slot x Normals)) eq_refl (free_ok _ _ _ _ _ _ Normals I1 F1 G1)) end. cbn [bind].
    pose proof (CL _ _ _ _ _ Normals I1 F1 G1 N1 N2) as I2. cbv zeta in I2.
    match type of I2 with Inv ?p ?q _ => set (s2 := p) in *; set (a2 := q) in * end.
    pose proof (NU _ _ _ _ _ F1 : nth_error (mm s2) m = Some _) as F2.
    pose proof (NU _ _ _ _ _ G1 : nth_error (a_mm a2) m = Some _) as G2.
    match goal with |- context [checked_free ?t (s_data (m_slot x Indices))] => rewrite (FR t s2 (s_data (m_slot x Indices)) eq_refl (free_ok _ _ _ _ _ _ Indices I2 F2 G2)) end. cbn [bind].
    pose proof (CL _ _ _ _ _ Indices I2 F2 G2 N1 N2) as I3. cbv zeta in I3.
    match type of I3 with Inv ?p ?q _ => set (s3 := p) in *; set (a3 := q) in * end.
    pose proof (NU _ _ _ _ _ F2 : nth_error (mm s3) m = Some _) as F3.
    pose proof (NU _ _ _ _ _ G2 : nth_error (a_mm a3) m = Some _) as G3.
    match goal with |- context [checked_free ?t (s_data (m_slot x Rgba))] => rewrite (FR t s3 (s_data (m_slot x Rgba)) eq_refl (free_ok _ _ _ _ _ _ Rgba I3 F3 G3)) end. cbn [bind].
    pose proof (CL _ _ _ _ _ Rgba I3 F3 G3 N1 N2) as I4. cbv zeta in I4.
    match type of I4 with Inv ?p ?q _ => set (s4 := p) in *; set (a4 := q) in * end.
    pose proof (NU _ _ _ _ _ F3 : nth_error (mm s4) m = Some _) as F4.
    pose proof (NU _ _ _ _ _ G3 : nth_error (a_mm a4) m = Some _) as G4.
    match goal with |- context [checked_free ?t (s_data (m_slot x Uv))] => rewrite (FR t s4 (s_data (m_slot x Uv)) eq_refl (free_ok _ _ _ _ _ _ Uv I4 F4 G4)) end. cbn [bind].
    pose proof (CL _ _ _ _ _ Uv I4 F4 G4 N1 N2) as I5. cbv zeta in I5.
    match type of I5 with Inv ?p ?q _ => set (s5 := p) in *; set (a5 := q) in * end.
    pose proof (NU _ _ _ _ _ F4 : nth_error (mm s5) m = Some _) as F5.
    pose proof (NU _ _ _ _ _ G4 : nth_error (a_mm a5) m = Some _) as G5.
    eexists. exists L. split; [reflexivity|].
    assert (MM : upd (mm s5) m None = upd (mm s) m None).
    { unfold s5, s4, s3, s2, s1. cbn [mm]. now rewrite !UU. }
    assert (MA : upd (a_mm a5) m None = upd (a_mm a) m None).
    { unfold a5, a4, a3, a2, a1. cbn [a_mm]. now rewrite !UU. }
    destruct I5 as (H1 & H2 & H3 & H4 & H5 & H6 & H7 & H8).
    apply inv_same with (mkMs (cl s5) (lb s5) (upd (mm s5) m None)); [reflexivity|reflexivity|cbn [mm]; now rewrite MM|].
    change (@repl) with (@upd). rewrite <- MA.
    assert (OW : forall m1 f j, own (mkMs (cl s5) (lb s5) (upd (mm s5) m None)) m1 f j <-> own s5 m1 f j).
    { intros m1 f j. unfold own. cbn [mm]. rewrite nth_error_upd. destruct (Nat.eqb_spec m m1) as [<-|Nm]; [|reflexivity].
      rewrite F5. split; intros (z & Ez & Ed); [discriminate|]. injection Ez as <-. destruct f; discriminate. }
    assert (OX : forall j, (exists m1 f, own (mkMs (cl s5) (lb s5) (upd (mm s5) m None)) m1 f j) <-> exists m1 f, own s5 m1 f j).
    { intros j. split; intros (m1 & f & O); exists m1, f; now apply OW. }
    split; [exact H1|]. split; [cbn [mm a_mm]; rewrite !length_upd; exact H2|]. split; [|split; [|split; [|split; [|split]]]].
    + intros m1 p q Ep Eq. cbn [mm a_mm] in Ep, Eq. rewrite nth_error_upd in Ep. rewrite nth_error_upd in Eq. destruct (Nat.eqb_spec m m1) as [<-|Nm].
      * rewrite F5 in Ep. rewrite G5 in Eq. injection Ep as <-. injection Eq as <-. exact I.
      * apply (H3 m1 p q Ep Eq).
    + intros m1 f j m' f' O1 O2. apply OW in O1. apply OW in O2. eauto.
    + exact H5.
    + exact H6.
    + intros j Q. rewrite OX. now apply H7.
    + intros j. rewrite OX. apply H8.
Qed.

Lemma run_app h1 : forall s h2, run s (h1 ++ h2) = bind (run s h1) (fun s' => run s' h2).
Proof.
  induction h1 as [|c r IH]; intros s h2; cbn; [reflexivity|]. destruct (step s c) as [| |s1]; cbn; auto.
Qed.

Lemma inv_start : Inv start a_start [].
Proof.
  split; [reflexivity|]. split; [reflexivity|]. split; [|split; [|split; [constructor|split; [reflexivity|split; [intros j []|]]]]].
  - intros m p q H. destruct m; discriminate.
  - intros m f j m' f' (x & E & _). destruct m; discriminate.
  - intros j. split.
    + intros (v & E). destruct j; discriminate.
    + intros [[]|(m & f & x & E & _)]. destruct m; discriminate.
Qed.

Lemma run_inv h a : meaning h a -> exists s L, run start h = Ok s /\ Inv s a L.
Proof.
  induction 1 as [|h a c a' _ (s & L & E & HI) He].
  - exists start, []. split; [reflexivity|exact inv_start].
  - destruct (step_ok s a L c a' HI He) as (s' & L' & E' & HI'). exists s', L'. split; [|exact HI'].
    rewrite run_app, E. cbn. now rewrite E'.
Qed.

Lemma holds_own s a L m f j : Inv s a L -> holds s m f j <-> own s m f j.
Proof.
  intros (H1 & H2 & H3 & _). unfold holds, own, mesh_at.
  destruct (nth_error (mm s) m) as [[x|]|] eqn:E.
  2:{ split; intros (z & Q & _); discriminate. }
  2:{ split; intros (z & Q & _); discriminate. }
  destruct (nth_error (a_mm a) m) as [q|] eqn:Eq.
  2:{ apply nth_error_None in Eq. apply lt_nth in E. lia. }
  specialize (H3 m _ _ E Eq). destruct q as [y|]; [|destruct H3]. destruct H3 as (_ & _ & Hs). specialize (Hs f).
  split; intros (z & Q & R); injection Q as <-; exists x; (split; [reflexivity|]);
    destruct (a_arr y f); cbn in Hs; try (rewrite Hs in R |- *; cbn in R |- *; congruence);
    destruct Hs as (k & Q & _); rewrite Q in R |- *; cbn in R |- *; congruence.
Qed.

Lemma inv_agrees s a L : Inv s a L -> agrees s a.
Proof.
  intros HI. pose proof HI as (H1 & H2 & H3 & H4 & H5 & H6 & H7 & H8). split; [exact H1|]. split; [|split; [|split]].
  - intros m y Hy. destruct (inv_mesh _ _ _ _ _ HI Hy) as (x & E1 & E2 & E3 & N1 & N2 & Hs). split; [|exists x; auto].
    intros f. specialize (Hs f). unfold view. rewrite E1. cbn [bind]. destruct (a_arr y f) as [|v|i]; cbn in Hs.
    + rewrite Hs. reflexivity.
    + destruct Hs as (j & -> & Hj). cbn. unfold block. rewrite Hj. reflexivity.
    + rewrite Hs. cbn. rewrite (block_client _ _ _ i HI). destruct (a_client a i); reflexivity.
  - intros m Hm. unfold mesh_at, a_mesh in *. destruct (nth_error (mm s) m) as [p|] eqn:Ep; [|reflexivity].
    destruct (nth_error (a_mm a) m) as [q|] eqn:Eq.
    2:{ apply nth_error_None in Eq. apply lt_nth in Ep. lia. }
    specialize (H3 m _ _ Ep Eq). destruct p, q; try reflexivity; cbn in H3; [discriminate|destruct H3].
  - intros m f j m' f' O1 O2. apply (holds_own _ _ _ _ _ _ HI) in O1. apply (holds_own _ _ _ _ _ _ HI) in O2. eauto.
  - exists L. split; [exact H5|]. split; [exact H6|]. intros j. rewrite H8. split; intros [Q|(m & f & O)]; auto; right; exists m, f;
      now apply (holds_own _ _ _ _ _ _ HI).
Qed.

Theorem arrays h a : meaning h a -> exists s, run start h = Ok s /\ agrees s a.
Proof. intros H. destruct (run_inv h a H) as (s & L & E & HI). exists s. split; [exact E|]. now apply inv_agrees with L. Qed.

Theorem arrays_released h a s : meaning h a -> lost a = 0%nat -> (forall m, a_mesh a m = None) ->
  run start h = Ok s -> forall j, ~ live s j.
Proof.
  intros Hm HL Hn Hr j Hj. destruct (arrays h a Hm) as (s' & E & _ & _ & Hx & _ & L & _ & Hl & HJ).
  assert (s' = s) by congruence. subst s'. apply HJ in Hj. destruct L; [|cbn in Hl; lia].
  destruct Hj as [[]|(m & f & x & Ex & _)]. rewrite (Hx m (Hn m)) in Ex. discriminate.
Qed.

(** ** What goes wrong *)
Lemma shade0 : shade 0 0. Proof. unfold shade. lra. Qed.
Lemma shade1 : shade 1 255. Proof. unfold shade. lra. Qed.

Theorem texture_leak : exists h a s, meaning h a /\ (forall m, a_mesh a m = None) /\ run start h = Ok s /\ exists j, live s j.
Proof.
  set (h := [MNew; MTexture 0 1 0 0 1; MTexture 0 1 0 0 1; MDestroy 0]).
  assert (Hm : exists a, meaning h a /\ (forall m, a_mesh a m = None) /\ lost a = 1%nat).
  { eexists. split.
    - change h with (((([] ++ [MNew]) ++ [MTexture 0 1 0 0 1]) ++ [MTexture 0 1 0 0 1]) ++ [MDestroy 0]).
      eapply meaning_snoc; [eapply meaning_snoc; [eapply meaning_snoc; [eapply meaning_snoc; [apply meaning_nil|apply e_mnew]|]|]|].
      + eapply e_texture; [reflexivity|lra|lra|lra|lra|exact shade1|exact shade0|exact shade0|exact shade1].
      + eapply e_texture; [reflexivity|lra|lra|lra|lra|exact shade1|exact shade0|exact shade0|exact shade1].
      + eapply e_destroy. reflexivity.
    - split; [|reflexivity]. intros [|[|m]]; reflexivity. }
  destruct Hm as (a & Hm & Hn & Hl). destruct (arrays h a Hm) as (s & E & _ & _ & _ & _ & L & _ & HL & HJ).
  exists h, a, s. split; [exact Hm|]. split; [exact Hn|]. split; [exact E|].
  destruct L as [|j L]; [cbn in HL; lia|]. exists j. apply HJ. left. now left.
Qed.

Theorem self_source_ub : exists h a, meaning h a /\ run start (h ++ [MSet 0 Vertices 1 (Of 0 Vertices) true]) = Ub.
Proof.
  exists [New [1; 2; 3]; MNew; MSet 0 Vertices 1 (Own 0) true]. eexists. split; [|reflexivity].
  change [New [1; 2; 3]; MNew; MSet 0 Vertices 1 (Own 0) true] with ((([] ++ [New [1; 2; 3]]) ++ [MNew]) ++ [MSet 0 Vertices 1 (Own 0) true]).
  eapply meaning_snoc; [eapply meaning_snoc; [eapply meaning_snoc; [apply meaning_nil|apply e_new]|apply e_mnew]|].
  eapply e_copy; [reflexivity|reflexivity|cbn; lia|discriminate].
Qed.

Theorem texture_bright_ub c0 c1 c2 c3 : (256 / 255 <= c0)%R -> run start [MNew; MTexture 0 c0 c1 c2 c3] = Ub.
Proof.
  intros H. cbn [run step bind]. unfold mesh_texture. cbn [texels]. unfold texel.
  destruct (Rlt_dec (-1) (c0 * 255)) as [_|N]; [|reflexivity].
  destruct (Rlt_dec (c0 * 255) 256) as [N|_]; [lra|]. reflexivity.
Qed.
