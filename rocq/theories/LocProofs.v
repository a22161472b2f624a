From Coq Require Import ZArith List Bool Lia.
From Verif Require Import RegionModel RegionSpec RegionProofs LocModel LocSpec.
Import ListNotations.
Open Scope Z_scope.

Lemma int32_small x : 0 <= x < 2 ^ 31 -> int32 x = x.
Proof. intros H. unfold int32. rewrite Z.mod_small by lia. lia. Qed.
Lemma mkR_eta s : mkR (rhead s) (rchunks s) (rmem s) = s.
Proof. destruct s. reflexivity. Qed.
Lemma reach_shape s k : reach s k -> exists c cs, rchunks s = c :: cs /\ 16 < cbase c /\ cbase c + 16 <= cend c /\
  cend c <= 2 ^ 63 /\ cbase c <= rhead s <= cend c + 15 /\ rhead s mod 16 = 0.
Proof.
  intros H. apply reach_Inv in H. destruct H as (c & cs & k1 & k2 & Hc & Hk & Hok & Hap & Hmod & Hh & Hs & Hl & Hr).
  exists c, cs. inversion Hok as [|? ? (A & B & C & D) _]; subst. repeat split; auto; lia.
Qed.
Lemma freesize_eq s c cs : rchunks s = c :: cs -> region_freesize s = Z.max 0 (cend c - rhead s).
Proof. intros H. unfold region_freesize. rewrite H. destruct (cend c <=? rhead s) eqn:E; lia. Qed.
Lemma app_len {A} (l : list A) a : Z.of_nat (length (l ++ [a])) = Z.of_nat (length l) + 1.
Proof. rewrite app_length. cbn [length]. lia. Qed.

(** one round when the text fits *)
Lemma vprintf_fits fuel m s k l : reach s k -> malloc_contract m -> region_freesize s < 2 ^ 31 ->
  Z.of_nat (length l) < region_freesize s ->
  exists p s', vprintf (S fuel) m s (Some l) = Some (Ok (p, s')) /\ reach s' (mkB p (map Some (l ++ [0])) :: k).
Proof.
  intros R M F L. destruct (reach_shape _ _ R) as (c & cs & Hc & B1 & B2 & B3 & B4 & B5).
  pose proof (freesize_eq _ _ _ Hc) as FE.
  assert (D : exists s', region_op m s (ODup (l ++ [0])) = Ok (rhead s, s') /\
    region_alloc m (mkR (rhead s) (rchunks s) (write_bytes (rmem s) (rhead s) (l ++ [0]))) (Z.of_nat (length l) + 1) = Ok (rhead s, s')).
  { cbn [region_op]. unfold region_dup, region_alloc. rewrite app_len. cbn [rchunks rhead rmem]. rewrite Hc.
    replace (W64 <=? rhead s + (Z.of_nat (length l) + 1)) with false by (unfold W64 in *; lia).
    replace (cend c <? rhead s + (Z.of_nat (length l) + 1)) with false by lia.
    cbn [bind rhead rchunks rmem]. rewrite ?Hc. eexists. split; reflexivity. }
  destruct D as (s' & D1 & D2).
  exists (rhead s), s'. split.
  - cbn [vprintf]. unfold vsn, region_ptr. replace (INT_MAX <? Z.of_nat (length l)) with false by (unfold INT_MAX; lia).
    replace (region_freesize s <=? 0) with false by lia.
    rewrite firstn_all2 by lia.
    replace (region_freesize {| rhead := rhead s; rchunks := rchunks s; rmem := write_bytes (rmem s) (rhead s) (l ++ [0]) |})
      with (region_freesize s) by reflexivity.
    rewrite int32_small by lia.
    replace (region_freesize s <=? Z.of_nat (length l)) with false by lia. now rewrite D2.
  - change (mkB (rhead s) (map Some (l ++ [0])) :: k) with (spec_step k (ODup (l ++ [0])) (rhead s)).
    eapply reach_step; [exact R|exact M| |exact D1]. cbn [legal]. rewrite app_len. unfold MAXREQ. lia.
Qed.

Lemma scratch_reach m s k w : reach s k -> malloc_contract m -> region_freesize s < 2 ^ 62 -> Z.of_nat (length w) <= region_freesize s ->
  reach (mkR (rhead s) (rchunks s) (write_bytes (rmem s) (rhead s) w)) k.
Proof.
  intros R M F L. destruct w as [|a w]; [cbn [write_bytes]; now rewrite mkR_eta|].
  destruct (reach_shape _ _ R) as (c & cs & Hc & B1 & B2 & B3 & B4 & B5).
  pose proof (freesize_eq _ _ _ Hc) as FE. set (v := a :: w) in *.
  assert (P : 0 < Z.of_nat (length v)) by (unfold v; cbn [length]; lia).
  change k with (spec_step k (OTmp (Z.of_nat (length v)) v) (rhead s)).
  eapply reach_step; [exact R|exact M| |].
  - cbn [legal]. unfold MAXREQ. lia.
  - cbn [region_op]. unfold region_tmpalloc. rewrite Hc.
    replace (W64 <=? rhead s + Z.of_nat (length v)) with false by (unfold W64; lia).
    replace (cend c <? rhead s + Z.of_nat (length v)) with false by lia.
    cbn [bind rhead rchunks rmem]. rewrite Hc. reflexivity.
Qed.

Lemma grow_size m s size s' c cs : malloc_contract m -> rchunks s = c :: cs -> 0 <= cend c - cbase c < 2 ^ 62 -> 0 <= size <= MAXREQ ->
  region_grow m s size = Ok s' -> region_freesize s' = Z.max (2 * (cend c - cbase c)) (size + 16) + 16 /\ 16 < rhead s'.
Proof.
  intros M Hc T S G. unfold region_grow in G. rewrite Hc in G. unfold node_alloc, MEMREG_ALIGN, wrap64, W64, MAXREQ in *.
  rewrite (Z.mod_small (2 * _)), (Z.mod_small (size + 16)) in G by lia.
  remember (Z.max (2 * (cend c - cbase c)) (size + 16)) as ns eqn:NS.
  destruct (m _ _) as [[a junk]|] eqn:E; [|discriminate]. cbn [bind] in G.
  destruct (M _ _ _ _ E) as (Ha & Hpos & Hhi & _).
  unfold assert_then in G. destruct (_ <=? _); [|discriminate]. destruct (_ =? 0); [|discriminate]. injection G as <-.
  unfold region_freesize. cbn [rchunks rhead cend]. rewrite (alignptr_id a Ha).
  destruct (a + ns + 16 <=? a) eqn:E2; lia.
Qed.

Lemma vprintf_text fuel m s k l : (2 <= fuel)%nat -> reach s k -> malloc_contract m -> region_topsize s < 2 ^ 30 - 8 ->
  Z.of_nat (length l) < 2 ^ 31 - 40 ->
  vprintf fuel m s (Some l) = Some (Fault NoMem) \/
  exists p s', vprintf fuel m s (Some l) = Some (Ok (p, s')) /\ reach s' (mkB p (map Some (l ++ [0])) :: k).
Proof.
  intros FU R M T L. destruct fuel as [|[|fuel]]; try lia.
  destruct (reach_shape _ _ R) as (c & cs & Hc & B1 & B2 & B3 & B4 & B5).
  pose proof (freesize_eq _ _ _ Hc) as FE. unfold region_topsize in T. rewrite Hc in T.
  destruct (Z_lt_le_dec (Z.of_nat (length l)) (region_freesize s)) as [F|F].
  { right. eapply vprintf_fits; eauto. lia. }
  remember (S fuel) as fu. cbn [vprintf]. unfold vsn. replace (INT_MAX <? Z.of_nat (length l)) with false by (unfold INT_MAX; lia).
  set (w := if region_freesize s <=? 0 then [] else _).
  set (s1 := mkR (rhead s) (rchunks s) (write_bytes (rmem s) (region_ptr s) w)).
  assert (R1 : reach s1 k).
  { apply (scratch_reach m); auto; [lia|]. unfold w. destruct (region_freesize s <=? 0) eqn:E; [cbn [length]; lia|].
    rewrite app_len, firstn_length. lia. }
  replace (region_freesize s1) with (region_freesize s) by reflexivity.
  rewrite int32_small by lia. replace (region_freesize s <=? Z.of_nat (length l)) with true by lia.
  set (sz := Z.of_nat (length l) + 1) in *.
  destruct (reach_progress s1 k m (OTmp sz []) R1 M) as [P|(ret & s2 & P)].
  { cbn [legal length]. unfold MAXREQ, sz. lia. }
  - left. cbn [region_op] in P. destruct (region_tmpalloc m s1 sz) as [[p s2]|e]; [discriminate|]. cbn [bind] in P. congruence.
  - pose proof (reach_step m s1 k (OTmp sz []) ret s2 R1 M) as RS. cbn [spec_step] in RS.
    assert (R2 : reach s2 k) by (apply RS; [cbn [legal length]; unfold MAXREQ, sz; lia|exact P]). clear RS.
    cbn [region_op] in P. destruct (region_tmpalloc m s1 sz) as [[p s2']|e] eqn:TE; [|discriminate]. cbn [bind write_bytes] in P.
    injection P as -> E2. rewrite mkR_eta in E2. subst s2'.
    unfold region_tmpalloc in TE. replace (rchunks s1) with (c :: cs) in TE by (symmetry; exact Hc).
    change (rhead s1) with (rhead s) in TE.
    destruct (W64 <=? rhead s + sz); [discriminate|]. replace (cend c <? rhead s + sz) with true in TE by (unfold sz; lia).
    destruct (region_grow m s1 sz) as [s3|] eqn:GE; [|discriminate]. cbn [bind] in TE. injection TE as <- <-.
    destruct (grow_size m s1 sz s3 c cs M Hc ltac:(lia) ltac:(unfold sz, MAXREQ; lia) GE) as [G1 G2].
    replace (rhead s3 =? 0) with false by lia. subst fu.
    right. apply vprintf_fits; auto; unfold sz in *; lia.
Qed.

(** the loop that does not end *)
Lemma vprintf_loops m l : forall fuel s c cs, rchunks s = c :: cs -> 0 < rhead s -> cend c <= 2 ^ 63 ->
  Z.of_nat (length l) <= INT_MAX -> Z.of_nat (length l) < region_freesize s -> int32 (region_freesize s) <= Z.of_nat (length l) ->
  vprintf fuel m s (Some l) = None.
Proof.
  induction fuel as [|fuel IH]; intros s c cs Hc H0 H63 L F I; [reflexivity|].
  pose proof (freesize_eq _ _ _ Hc) as FE.
  cbn [vprintf]. unfold vsn. replace (INT_MAX <? Z.of_nat (length l)) with false by lia.
  set (w := if region_freesize s <=? 0 then [] else _).
  set (s1 := mkR (rhead s) (rchunks s) (write_bytes (rmem s) (region_ptr s) w)).
  replace (region_freesize s1) with (region_freesize s) by reflexivity.
  replace (int32 (region_freesize s) <=? Z.of_nat (length l)) with true by lia.
  unfold region_tmpalloc. replace (rchunks s1) with (c :: cs) by (symmetry; exact Hc). change (rhead s1) with (rhead s).
  replace (W64 <=? rhead s + (Z.of_nat (length l) + 1)) with false by (unfold W64; lia).
  replace (cend c <? rhead s + (Z.of_nat (length l) + 1)) with false by lia.
  replace (rhead s =? 0) with false by lia. apply (IH s1 c cs); auto.
Qed.
Lemma vprintf_hang s k m l : reach s k -> Z.of_nat (length l) <= INT_MAX -> Z.of_nat (length l) < region_freesize s ->
  int32 (region_freesize s) <= Z.of_nat (length l) -> forall fuel, vprintf fuel m s (Some l) = None.
Proof.
  intros R L F I fuel. destruct (reach_shape _ _ R) as (c & cs & Hc & B1 & B2 & B3 & B4 & B5).
  apply (vprintf_loops m l fuel s c cs); auto; lia.
Qed.

Lemma vprintf_bad fuel m s k n : reach s k -> 0 < n <= region_freesize s -> region_freesize s < 2 ^ 31 ->
  exists p s1 s2, vprintf (S fuel) m s None = Some (Ok (p, s1)) /\ region_alloc m s1 n = Ok (p, s2).
Proof.
  intros R N F. destruct (reach_shape _ _ R) as (c & cs & Hc & B1 & B2 & B3 & B4 & B5).
  pose proof (freesize_eq _ _ _ Hc) as FE.
  cbn [vprintf vsn write_bytes]. rewrite mkR_eta, int32_small by lia.
  replace (region_freesize s <=? -1) with false by lia. change (-1 + 1) with 0.
  unfold region_alloc at 1. rewrite Hc. replace (W64 <=? rhead s + 0) with false by (unfold W64; lia).
  replace (cend c <? rhead s + 0) with false by lia. cbn [bind].
  eexists _, _, _. split; [reflexivity|]. unfold region_alloc. cbn [rchunks rhead rmem]. rewrite Hc, Z.add_0_r, (alignptr_id _ B5).
  replace (W64 <=? rhead s + n) with false by (unfold W64; lia).
  replace (cend c <? rhead s + n) with false by lia. reflexivity.
Qed.

Lemma hang_witness : exists s k m l, reach s k /\ malloc_contract m /\ Z.of_nat (length l) = 1 /\
  forall fuel, vprintf fuel m s (Some l) = None.
Proof.
  set (m := malloc_at 32 (fun _ => 0)).
  assert (MC : malloc_contract m) by apply malloc_at_contract.
  assert (E : m [] (2 ^ 31 + 16) = Some (32, fun _ : Z => 0)) by (unfold m, malloc_at; reflexivity).
  set (s := mkR (alignptr 32) [mkChunk 32 (32 + 2 ^ 31 + 16)] (fill (fun _ => 0) 32 (2 ^ 31 + 16) (fun _ => 0))).
  assert (I : region_init m (2 ^ 31) (fun _ => 0) = Ok s).
  { unfold region_init, node_alloc, MEMREG_ALIGN. rewrite E. reflexivity. }
  assert (F : region_freesize s = 2 ^ 31 + 16) by reflexivity.
  clearbody m s.
  assert (R : reach s []) by (eapply reach_init; [exact MC| |exact I]; lia).
  exists s, [], m, [65]. split; [exact R|]. split; [exact MC|]. split; [reflexivity|].
  apply (vprintf_hang s [] m [65] R); rewrite ?F; vm_compute; try reflexivity; discriminate.
Qed.

(** ** Threads *)
Lemma shared_contract M oth : malloc_contract M -> malloc_contract (shared M oth).
Proof.
  intros H live n a junk E. unfold shared in E. destruct (H _ _ _ _ E) as (A & B & C & D).
  repeat split; auto. intros c Hc. apply D. apply in_or_app. auto.
Qed.
(** chunks that came from malloc stay off the others; memory outside is kept *)
Definition away (oth : list chunk) (c : chunk) : Prop := forall d, In d oth -> apart c d.
Definition local_mem (oth : list chunk) (mem mem' : Z -> Z) : Prop :=
  forall x d, In d oth -> cbase d <= x < cend d -> mem' x = mem x.
Definition tame (oth : list chunk) (s s' : rstate) : Prop :=
  Forall (away oth) (rchunks s') /\ local_mem oth (rmem s) (rmem s').
Lemma node_alloc_tame M oth n next mem s : malloc_contract M -> Forall (away oth) next ->
  node_alloc (shared M oth) n next mem = Ok s -> Forall (away oth) (rchunks s) /\ local_mem oth mem (rmem s).
Proof.
  intros H A E. unfold node_alloc, MEMREG_ALIGN, shared in E. destruct (M _ _) as [[a junk]|] eqn:EM; [|discriminate].
  destruct (H _ _ _ _ EM) as (A1 & A2 & A3 & A4). injection E as <-. cbn [rchunks rmem]. split.
  - constructor; [|exact A]. intros d Hd. unfold apart. cbn [cbase cend]. specialize (A4 d (in_or_app _ _ _ (or_intror Hd))). lia.
  - intros x d Hd Hx. apply fill_out. specialize (A4 d (in_or_app _ _ _ (or_intror Hd))). lia.
Qed.
Lemma local_refl oth mem : local_mem oth mem mem.
Proof. intros x d _ _. reflexivity. Qed.
Lemma local_trans oth a b c : local_mem oth a b -> local_mem oth b c -> local_mem oth a c.
Proof. intros H1 H2 x d Hd Hx. rewrite (H2 x d Hd Hx). apply (H1 x d Hd Hx). Qed.
Lemma grow_tame M oth s size s' : malloc_contract M -> Forall (away oth) (rchunks s) ->
  region_grow (shared M oth) s size = Ok s' -> tame oth s s'.
Proof.
  intros H A E. unfold region_grow in E. destruct (rchunks s) as [|c cs] eqn:Hc; [discriminate|].
  destruct (node_alloc (shared M oth) _ _ _) as [s2|] eqn:EN; [|discriminate]. cbn [bind] in E.
  unfold assert_then in E. destruct (_ <=? _); [|discriminate]. destruct (_ =? 0); [|discriminate]. injection E as <-.
  apply node_alloc_tame in EN; auto. destruct (_ =? _); auto. now inversion A.
Qed.
Lemma tmp_tame M oth s size p s' : malloc_contract M -> Forall (away oth) (rchunks s) ->
  region_tmpalloc (shared M oth) s size = Ok (p, s') -> tame oth s s'.
Proof.
  intros H A E. unfold region_tmpalloc in E. destruct (rchunks s) as [|c cs] eqn:Hc; [discriminate|].
  destruct (W64 <=? _); [discriminate|]. destruct (_ <? _).
  - destruct (region_grow _ _ _) as [s2|] eqn:G; [|discriminate]. cbn [bind] in E. injection E as _ <-.
    eapply grow_tame; eauto. now rewrite Hc.
  - injection E as _ <-. split; [now rewrite Hc|apply local_refl].
Qed.
Lemma alloc_tame M oth s size p s' : malloc_contract M -> Forall (away oth) (rchunks s) ->
  region_alloc (shared M oth) s size = Ok (p, s') -> tame oth s s'.
Proof.
  intros H A E. rewrite alloc_tmpalloc in E. destruct (region_tmpalloc _ _ _) as [[q s2]|] eqn:T; [|discriminate].
  cbn [bind] in E. injection E as _ <-. apply tmp_tame in T; auto.
Qed.
Lemma assert_then_ok {A} b (o : outcome A) x : assert_then b o = Ok x -> o = Ok x.
Proof. destruct b; [auto|discriminate]. Qed.
Lemma pop_walk_incl p : forall cs n n' cs', pop_walk p n cs = (n', cs') -> incl cs' cs.
Proof.
  induction cs as [|c r IH]; intros n n' cs' E; cbn [pop_walk] in E.
  - injection E as _ <-. apply incl_refl.
  - destruct (pop_in_node p c); [injection E as _ <-; apply incl_refl|]. apply incl_tl. eapply IH; eauto.
Qed.
Lemma pop_tame M oth s p s' : malloc_contract M -> Forall (away oth) (rchunks s) ->
  region_pop (shared M oth) s p = Ok s' -> tame oth s s'.
Proof.
  intros H A E. unfold region_pop in E. destruct (rchunks s) as [|c cs] eqn:Hc; [discriminate|].
  destruct (pop_in_node p c).
  - injection E as <-. split; [exact A|apply local_refl].
  - destruct (pop_walk p _ cs) as [n cs'] eqn:W. pose proof (pop_walk_incl _ _ _ _ _ W) as I.
    assert (A' : Forall (away oth) cs') by (apply (Forall_incl _ cs); [exact I|now inversion A]).
    destruct cs' as [|q cs'']; [apply node_alloc_tame in E; auto|].
    apply assert_then_ok in E. apply assert_then_ok in E.
    apply node_alloc_tame in E; auto. destruct (_ =? _); auto. now inversion A'.
Qed.
Lemma release_tame M oth s s' : malloc_contract M -> Forall (away oth) (rchunks s) ->
  region_release (shared M oth) s = Ok s' -> tame oth s s'.
Proof.
  intros H A E. unfold region_release in E. destruct (rchunks s) as [|c cs] eqn:Hc; [discriminate|].
  destruct cs as [|d ds].
  - injection E as <-. split; [exact A|apply local_refl].
  - destruct (node_alloc _ _ _ _) as [s2|] eqn:N; [|discriminate]. cbn [bind] in E.
    apply node_alloc_tame in N; [|auto|constructor]. destruct (rchunks s2) as [|e es] eqn:R2; [discriminate|]. injection E as <-.
    destruct N as [N1 N2]. split; [exact N1|exact N2].
Qed.
(** bytes written inside an own chunk do not reach the others *)
Lemma inside_local oth cs c a n (mem mem' : Z -> Z) : Forall (away oth) cs -> In c cs -> cbase c <= a -> a + n <= cend c ->
  (forall x, x < a \/ a + n <= x -> mem' x = mem x) -> local_mem oth mem mem'.
Proof.
  intros A Hc L U H x d Hd Hx. apply H. rewrite Forall_forall in A. specialize (A c Hc d Hd). unfold apart in A. lia.
Qed.

Lemma write_local oth s k b0 off n mem' : Inv s k -> Forall (away oth) (rchunks s) -> In b0 k -> 0 <= off -> off + n <= blen b0 ->
  (forall x, x < bptr b0 + off \/ bptr b0 + off + n <= x -> mem' x = rmem s x) -> local_mem oth (rmem s) mem'.
Proof.
  intros I A Hb O N H. destruct (Inv_in _ _ I b0 Hb) as (c & Hc & B1 & B2 & B3 & B4).
  apply (inside_local oth (rchunks s) c (bptr b0 + off) n); auto; lia.
Qed.
Lemma top_local oth s k n mem' : Inv s k -> Forall (away oth) (rchunks s) ->
  (exists c, hd_error (rchunks s) = Some c /\ rhead s + n <= cend c) ->
  (forall x, x < rhead s \/ rhead s + n <= x -> mem' x = rmem s x) -> local_mem oth (rmem s) mem'.
Proof.
  intros (c & cs & k1 & k2 & Hc & _ & _ & _ & _ & Hh & _) A (d & Hd & L) H. rewrite Hc in Hd. cbn [hd_error] in Hd. injection Hd as <-.
  apply (inside_local oth (rchunks s) c (rhead s) n); auto; [rewrite Hc; now left|lia].
Qed.
Lemma op_tame M oth s k o ret s' : malloc_contract M -> Inv s k -> legal s k o -> Forall (away oth) (rchunks s) ->
  region_op (shared M oth) s o = Ok (ret, s') -> tame oth s s'.
Proof.
  intros H I L A E. pose proof (shared_contract M oth H) as H'.
  assert (TM : forall n p s2, 0 <= n <= MAXREQ -> region_tmpalloc (shared M oth) s n = Ok (p, s2) ->
    tame oth s s2 /\ p = rhead s2 /\ Inv s2 k /\ exists c, hd_error (rchunks s2) = Some c /\ rhead s2 + n <= cend c).
  { intros n p s2 N T. split; [exact (tmp_tame M oth s n p s2 H A T)|].
    destruct (tmpalloc_ok _ _ _ n H' I N) as [T'|(s3 & T' & I3 & P)]; rewrite T' in T; [discriminate|]. injection T as <- <-. split; [reflexivity|]. split; [exact I3|exact P]. }
  destruct o as [n|n|src|n src| |p| |p off v]; cbn [region_op legal] in *.
  - exact (alloc_tame M oth s n ret s' H A E).
  - unfold region_zalloc in E. rewrite alloc_tmpalloc in E. destruct (region_tmpalloc _ s n) as [[q s2]|] eqn:T; [|discriminate].
    cbn [bind rhead rchunks rmem] in E. destruct (TM n _ _ ltac:(lia) T) as ((T1 & T2) & -> & I2 & T3). injection E as _ <-.
    split; [exact T1|]. cbn [rmem]. eapply local_trans; [exact T2|]. eapply top_local; eauto. intros x Hx. now apply fill_out.
  - unfold region_dup in E. rewrite alloc_tmpalloc in E. destruct (region_tmpalloc _ s _) as [[q s2]|] eqn:T; [|discriminate].
    cbn [bind rhead rchunks rmem] in E. destruct (TM (Z.of_nat (length src)) _ _ ltac:(lia) T) as ((T1 & T2) & -> & I2 & T3). injection E as _ <-.
    split; [exact T1|]. cbn [rmem]. eapply local_trans; [exact T2|]. eapply top_local; eauto. intros x Hx. now apply write_bytes_out.
  - destruct (region_tmpalloc _ s n) as [[q s2]|] eqn:T; [|discriminate]. cbn [bind] in E.
    destruct L as [L1 L2]. destruct (TM _ _ _ L1 T) as ((T1 & T2) & -> & I2 & T3). injection E as _ <-.
    split; [exact T1|]. cbn [rmem]. eapply local_trans; [exact T2|]. eapply top_local; eauto.
    intros x Hx. apply write_bytes_out. lia.
  - injection E as _ <-. split; [exact A|apply local_refl].
  - destruct (region_pop _ _ _) as [s2|] eqn:P; [|discriminate]. cbn [bind] in E. injection E as _ <-. exact (pop_tame M oth s p s2 H A P).
  - destruct (region_release _ _) as [s2|] eqn:P; [|discriminate]. cbn [bind] in E. injection E as _ <-. exact (release_tame M oth s s2 H A P).
  - injection E as _ <-. destruct L as (b & Hb & <- & Ho). split; [exact A|]. cbn [rmem].
    apply (write_local oth s k b off 1); auto; try lia. intros x Hx. replace (x =? bptr b + off) with false by lia. reflexivity.
Qed.

(** ** The invariant of all threads *)
Lemma put_length l : forall t x, length (put l t x) = length l.
Proof. induction l as [|a l IH]; intros [|t] x; cbn [put length]; auto. Qed.
Lemma put_same l : forall t x, (t < length l)%nat -> nth t (put l t x) None = x.
Proof. induction l as [|a l IH]; intros [|t] x H; cbn [put nth length] in *; try lia; auto. apply IH. lia. Qed.
Lemma put_other l : forall t u x, t <> u -> nth u (put l t x) None = nth u l None.
Proof. induction l as [|a l IH]; intros [|t] [|u] x H; cbn [put nth]; auto; try lia. Qed.
Lemma set_length ks : forall t k, length (set_stack ks t k) = length ks.
Proof. induction ks as [|a l IH]; intros [|t] x; cbn [set_stack length]; auto. Qed.
Lemma set_same ks : forall t k, (t < length ks)%nat -> nth t (set_stack ks t k) [] = k.
Proof. induction ks as [|a l IH]; intros [|t] x H; cbn [set_stack nth length] in *; try lia; auto. apply IH. lia. Qed.
Lemma set_other ks : forall t u k, t <> u -> nth u (set_stack ks t k) [] = nth u ks [].
Proof. induction ks as [|a l IH]; intros [|t] [|u] x H; cbn [set_stack nth]; auto; try lia. Qed.
Lemma in_others y t d : In d (others y t) <-> exists u, u <> t /\ In d (chunks_of (slot_of y u)).
Proof.
  unfold others, slot_of. rewrite in_flat_map. split.
  - intros (x & Hx & Hd). apply (In_nth _ _ None) in Hx. destruct Hx as (u & Hu & <-). rewrite put_length in Hu.
    destruct (Nat.eq_dec t u) as [->|N]; [rewrite put_same in Hd by exact Hu; destruct Hd|].
    rewrite put_other in Hd by exact N. exists u. auto.
  - intros (u & N & Hd). destruct (Nat.lt_ge_cases u (length (slots y))) as [L|G].
    + exists (nth u (slots y) None). split; [|exact Hd].
      rewrite <- (put_other (slots y) t u None) by auto. apply nth_In. now rewrite put_length.
    + rewrite nth_overflow in Hd by exact G. destruct Hd.
Qed.

Definition thread_inv (mem : Z -> Z) (x : slot) (k : stack) : Prop :=
  match x with Some (h, cs) => Inv (mkR h cs mem) k | None => k = [] end.
Definition SI (n : nat) (y : sys) (ks : list stack) : Prop :=
  length (slots y) = n /\ length ks = n /\
  (forall t, thread_inv (smem y) (slot_of y t) (stack_of ks t)) /\
  (forall t u c d, t <> u -> In c (chunks_of (slot_of y t)) -> In d (chunks_of (slot_of y u)) -> apart c d).

Lemma Inv_mem h cs mem mem' k : Inv (mkR h cs mem) k ->
  (forall c x, In c cs -> cbase c <= x < cend c -> mem' x = mem x) -> Inv (mkR h cs mem') k.
Proof.
  intros I H. pose proof (Inv_in _ _ I) as IN. cbn [rchunks] in IN.
  destruct I as (c & cs' & k1 & k2 & Hc & Hk & Hok & Hap & Hmod & Hh & Hs & Hl & Hr).
  exists c, cs', k1, k2. cbn [rchunks rhead rmem] in *. repeat (split; [assumption|]).
  rewrite Forall_forall in *. intros b Hb. apply readable_ext with (mem := mem); [|now apply Hr].
  intros x Hx. destruct (IN b Hb) as (d & Hd & B1 & B2 & B3 & B4). apply (H d); auto. lia.
Qed.
Lemma apart_sym c d : apart c d -> apart d c.
Proof. unfold apart. tauto. Qed.

Lemma SI_away n y ks t : SI n y ks -> Forall (away (others y t)) (chunks_of (slot_of y t)).
Proof.
  intros (_ & _ & _ & A). apply Forall_forall. intros c Hc d Hd. apply in_others in Hd. destruct Hd as (u & N & Hd).
  apply (A t u); auto.
Qed.
(** replacing the slot of one thread *)
Lemma SI_replace n y ks t x mem' k : SI n y ks -> (t < n)%nat -> thread_inv mem' x k ->
  Forall (away (others y t)) (chunks_of x) -> local_mem (others y t) (smem y) mem' ->
  SI n (mkS mem' (put (slots y) t x)) (set_stack ks t k).
Proof.
  intros (L1 & L2 & T & A) Lt Hx AW LM. unfold SI, slot_of, stack_of in *. cbn [slots smem]. rewrite put_length, set_length.
  split; [exact L1|]. split; [exact L2|]. split.
  - intros u. destruct (Nat.eq_dec t u) as [<-|N].
    + rewrite put_same, set_same by lia. exact Hx.
    + rewrite put_other, set_other by exact N. specialize (T u). destruct (nth u (slots y) None) as [[h cs]|] eqn:E; [|exact T].
      apply (Inv_mem h cs (smem y)); [exact T|]. intros c z Hc Hz. apply (LM z c); [|exact Hz].
      apply in_others. exists u. unfold slot_of. rewrite E. auto.
  - rewrite Forall_forall in AW.
    intros u v c d N Hc Hd. destruct (Nat.eq_dec t u) as [<-|N1], (Nat.eq_dec t v) as [<-|N2].
    + contradiction.
    + rewrite put_same in Hc by lia. rewrite put_other in Hd by exact N2. apply AW; [exact Hc|]. apply in_others. exists v. auto.
    + rewrite put_same in Hd by lia. rewrite put_other in Hc by exact N1. apply apart_sym, AW; [exact Hd|]. apply in_others. exists u. auto.
    + rewrite put_other in Hc, Hd by assumption. apply (A u v); auto.
Qed.
Lemma init_ok M oth size mem s : malloc_contract M -> 0 <= size -> region_init (shared M oth) size mem = Ok s ->
  Inv s [] /\ Forall (away oth) (rchunks s) /\ local_mem oth mem (rmem s).
Proof.
  intros H S E. unfold region_init in E. split.
  - destruct (node_alloc_inv _ _ _ _ _ [] (shared_contract M oth H) S (Forall_nil _) (FOP_nil _) lay_nil (Forall_nil _) E)
      as (a & j & _ & _ & _ & _ & I). exact I.
  - apply node_alloc_tame in E; auto.
Qed.
Lemma get_ok n M y ks t : SI n y ks -> malloc_contract M ->
  local_get M y t = Fault NoMem \/
  exists s, local_get M y t = Ok s /\ Inv s (stack_of ks t) /\ Forall (away (others y t)) (rchunks s) /\
    local_mem (others y t) (smem y) (rmem s) /\ (forall o, thread_legal y (stack_of ks t) t (TOp o) -> legal s (stack_of ks t) o).
Proof.
  intros S H. pose proof (SI_away _ _ _ t S) as A. destruct S as (_ & _ & T & _). specialize (T t).
  unfold local_get, thread_legal in *. destruct (slot_of y t) as [[h cs]|] eqn:E.
  - right. exists (mkR h cs (smem y)). split; [reflexivity|]. split; [exact T|]. split; [exact A|]. split; [apply local_refl|auto].
  - unfold local_init. destruct (region_init (shared M (others y t)) (4096 * 64) (smem y)) as [s|e] eqn:I.
    + right. exists s. split; [reflexivity|]. destruct (init_ok M (others y t) (4096 * 64) (smem y) s H) as (I1 & I2 & I3); [lia|exact I|].
      cbn [thread_inv] in T. rewrite T. auto.
    + left. unfold region_init, node_alloc in I. destruct (shared _ _ _ _) as [[a j]|]; congruence.
Qed.
Lemma step_SI n M y ks t c : SI n y ks -> malloc_contract M -> (t < n)%nat -> thread_legal y (stack_of ks t) t c ->
  tstep M y t c = Fault NoMem \/
  exists ret y', tstep M y t c = Ok (ret, y') /\ SI n y' (set_stack ks t (thread_effect (stack_of ks t) c ret)) /\
    local_mem (others y t) (smem y) (smem y').
Proof.
  intros S H Lt L. destruct c as [size| |o|]; cbn [tstep thread_effect].
  - unfold local_init. destruct (region_init _ size (smem y)) as [s|e] eqn:I.
    + right. cbn [bind]. eexists _, _. split; [reflexivity|].
      destruct (init_ok _ _ _ _ _ H L I) as (I1 & I2 & I3). split; [|exact I3].
      apply SI_replace; auto; cbn [thread_inv]; now rewrite ?mkR_eta.
    + left. unfold region_init, node_alloc in I. destruct (shared _ _ _ _) as [[a j]|]; cbn [bind]; congruence.
  - right. eexists _, _. split; [reflexivity|]. split; [|apply local_refl]. apply SI_replace; auto; first [reflexivity|constructor|apply local_refl].
  - destruct (get_ok n M y ks t S H) as [G|(s & G & I & A & LM & LG)]; rewrite G; cbn [bind]; [now left|].
    specialize (LG o L).
    destruct (step_ok (shared M (others y t)) s (stack_of ks t) o (shared_contract _ _ H) I LG) as [E|(ret & s' & E & I')];
      rewrite E; cbn [bind]; [now left|right].
    destruct (op_tame M (others y t) s (stack_of ks t) o ret s' H I LG A E) as [T1 T2].
    eexists _, _. split; [reflexivity|]. split.
    + apply SI_replace; auto. eapply local_trans; eauto.
    + eapply local_trans; eauto.
  - right. eexists _, _. split; [reflexivity|]. split; [|apply local_refl]. apply SI_replace; auto; first [reflexivity|constructor|apply local_refl].
Qed.
Lemma treach_SI n y ks : treach n y ks -> SI n y ks.
Proof.
  induction 1 as [mem|y ks M t c ret y' R IH H Lt L E].
  - unfold SI, slot_of, stack_of. cbn [slots smem]. rewrite !repeat_length. split; [reflexivity|]. split; [reflexivity|].
    assert (N : forall t, nth t (repeat (@None (Z * list chunk)) n) None = None) by (intros t; apply nth_repeat).
    split.
    + intros t. rewrite N. cbn [thread_inv]. apply nth_repeat.
    + intros t u c d _ Hc. rewrite N in Hc. destruct Hc.
  - destruct (step_SI n M y ks t c IH H Lt L) as [F|(r & y2 & E2 & S & _)]; rewrite E in *; [discriminate|]. now injection E2 as <- <-.
Qed.

Lemma thread_blocks n y ks : treach n y ks ->
  (forall t b, In b (stack_of ks t) -> readable (smem y) b /\ exists c, In c (all_chunks y) /\ inside b c) /\
  (forall t, ForallOrdPairs disjoint_blocks (stack_of ks t)) /\
  (forall t u a b, t <> u -> In a (stack_of ks t) -> In b (stack_of ks u) -> disjoint_blocks a b).
Proof.
  intros R. apply treach_SI in R. destruct R as (L1 & L2 & T & A).
  assert (IN : forall t b, In b (stack_of ks t) -> exists c, In c (chunks_of (slot_of y t)) /\ inside b c).
  { intros t b Hb. specialize (T t). destruct (slot_of y t) as [[h cs]|]; cbn [thread_inv chunks_of] in *; [|rewrite T in Hb; destruct Hb].
    destruct (Inv_in _ _ T b Hb) as (c & Hc & B1 & B2 & B3 & B4). exists c. split; [exact Hc|]. split; auto. }
  split; [|split].
  - intros t b Hb. split.
    + specialize (T t). destruct (slot_of y t) as [[h cs]|]; cbn [thread_inv] in T; [|rewrite T in Hb; destruct Hb].
      destruct T as (c & cs' & k1 & k2 & Hc & Hk & Hok & Hap & Hmod & Hh & Hs & Hl & Hr). rewrite Forall_forall in Hr. now apply Hr.
    + destruct (IN t b Hb) as (c & Hc & I). exists c. split; [|exact I]. unfold all_chunks. apply in_flat_map.
      exists (slot_of y t). split; [|exact Hc]. unfold slot_of in *. apply nth_In.
      destruct (Nat.lt_ge_cases t (length (slots y))) as [L|G]; [exact L|]. rewrite nth_overflow in Hc by exact G. destruct Hc.
  - intros t. specialize (T t). destruct (slot_of y t) as [[h cs]|]; cbn [thread_inv] in T; [eapply Inv_disj; eauto|rewrite T; constructor].
  - intros t u a b N Ha Hb. destruct (IN t a Ha) as (c & Hc & I1 & I2), (IN u b Hb) as (d & Hd & I3 & I4).
    specialize (A t u c d N Hc Hd). unfold apart in A. unfold disjoint_blocks. lia.
Qed.
Lemma thread_progress n y ks M t c : treach n y ks -> malloc_contract M -> (t < n)%nat -> thread_legal y (stack_of ks t) t c ->
  tstep M y t c = Fault NoMem \/ exists ret y', tstep M y t c = Ok (ret, y').
Proof.
  intros R H Lt L. destruct (step_SI n M y ks t c (treach_SI _ _ _ R) H Lt L) as [F|(r & y2 & E & _)]; eauto.
Qed.
Lemma thread_frame n y ks M t c ret y' u b : treach n y ks -> malloc_contract M -> (t < n)%nat -> thread_legal y (stack_of ks t) t c ->
  tstep M y t c = Ok (ret, y') -> u <> t -> In b (stack_of ks u) ->
  slot_of y' u = slot_of y u /\ forall x, bptr b <= x < bptr b + blen b -> smem y' x = smem y x.
Proof.
  intros R H Lt L E N Hb. pose proof (treach_SI _ _ _ R) as S.
  destruct (step_SI n M y ks t c S H Lt L) as [F|(r & y2 & E2 & _ & LM)]; [congruence|].
  rewrite E in E2. injection E2 as <- <-. split.
  - assert (P : forall m x, slot_of (mkS m (put (slots y) t x)) u = slot_of y u) by (intros m x; apply put_other; auto).
    destruct c as [size| |o|]; cbn [tstep] in E.
    + destruct (local_init _ _ _ _); [|discriminate]. cbn [bind] in E. injection E as _ <-. apply P.
    + injection E as _ <-. apply P.
    + destruct (local_get _ _ _); [|discriminate]. cbn [bind] in E. destruct (region_op _ _ _) as [[q s']|]; [|discriminate].
      cbn [bind] in E. injection E as _ <-. apply P.
    + injection E as _ <-. apply P.
  - intros x Hx. destruct S as (_ & _ & T & _). specialize (T u).
    destruct (slot_of y u) as [[h cs]|] eqn:SU; cbn [thread_inv] in T; [|rewrite T in Hb; destruct Hb].
    destruct (Inv_in _ _ T b Hb) as (d & Hd & B1 & B2 & B3 & B4). cbn [rchunks] in Hd.
    apply (LM x d); [|lia]. apply in_others. exists u. rewrite SU. auto.
Qed.
Lemma thread_exit n y ks M t c ret y' : treach n y ks -> (t < n)%nat -> (c = TExit \/ c = TDestroy) ->
  tstep M y t c = Ok (ret, y') -> forall d, In d (all_chunks y') <-> exists u, u <> t /\ In d (chunks_of (slot_of y u)).
Proof.
  intros R Lt C E d. rewrite <- in_others. destruct C as [-> | ->]; cbn [tstep] in E; injection E as _ <-; reflexivity.
Qed.
