(** Lines and numbers read into a region. *)
From Coq Require Import ZArith Reals List Bool Arith Lia.
From Verif Require Import RegionModel RegionSpec RegionProofs IoModel IoSpec.
Import ListNotations.
Open Scope Z_scope.

Lemma write_app l1 : forall mem a l2,
  write_bytes mem a (l1 ++ l2) = write_bytes (write_bytes mem a l1) (a + Z.of_nat (length l1)) l2.
Proof.
  induction l1 as [|v r IH]; intros mem a l2.
  - cbn. now replace (a + 0) with a by lia.
  - cbn [app write_bytes length]. rewrite IH. f_equal. lia.
Qed.

(** ** Cells of [w] bytes stored one after the other in scratch space *)
Fixpoint cells (ms : nat -> mallocF) (w : Z) (its : list (list Z)) (n : nat) (X : option Z) (s : rstate)
    : outcome (option Z * rstate) :=
  match its with
  | [] => Ok (X, s)
  | it :: r =>
      bind (region_tmprealloc (ms n) s (w * (Z.of_nat n + 1))) (fun ps =>
      cells ms w r (S n) (Some (fst ps))
        (mkR (rhead (snd ps)) (rchunks (snd ps)) (write_bytes (rmem (snd ps)) (fst ps + w * Z.of_nat n) it)))
  end.

Lemma tmprealloc_fits m s c cs z :
  rchunks s = c :: cs -> rhead s + z <= cend c -> cend c <= 2 ^ 63 -> region_tmprealloc m s z = Ok (rhead s, s).
Proof.
  intros Hc Hz He. unfold region_tmprealloc, region_tmpalloc. rewrite Hc.
  assert (W64 = 2 ^ 64) by reflexivity.
  destruct (Z.leb_spec W64 (rhead s + z)); [lia|]. destruct (Z.ltb_spec (cend c) (rhead s + z)); [lia|].
  cbn [bind]. now rewrite Z.eqb_refl.
Qed.
Lemma cells_fit ms w its : forall n X s c cs,
  rchunks s = c :: cs -> cend c <= 2 ^ 63 -> 0 < w -> Forall (fun it => Z.of_nat (length it) = w) its ->
  rhead s + w * (Z.of_nat n + Z.of_nat (length its)) <= cend c ->
  cells ms w its n X s =
    Ok (match its with [] => X | _ => Some (rhead s) end,
        mkR (rhead s) (rchunks s) (write_bytes (rmem s) (rhead s + w * Z.of_nat n) (concat its))).
Proof.
  induction its as [|it r IH]; intros n X s c cs Hc He Hw HF Hfit.
  - cbn. destruct s; reflexivity.
  - cbn [cells length] in *. apply Forall_cons_iff in HF. destruct HF as [Hi HF].
    rewrite (tmprealloc_fits _ _ _ _ _ Hc) by nia. cbn [bind fst snd].
    erewrite IH by (cbn [rchunks rhead]; try eassumption; nia). cbn [rchunks rhead rmem concat].
    rewrite write_app, Hi. replace (rhead s + w * Z.of_nat (S n)) with (rhead s + w * Z.of_nat n + w) by nia.
    destruct r; reflexivity.
Qed.

(** a line is cells of one byte *)
Lemma getline_cells ms l : forall tail n s,
  ~ In 10 l ->
  getline_from ms (l ++ tail) n s =
  andthen (region (cells ms 1 (map (fun c => [c]) l) n None s)) (fun ps => getline_from ms tail (n + length l) (snd ps)).
Proof.
  assert (G : forall tail X n s, ~ In 10 l ->
    getline_from ms (l ++ tail) n s =
    andthen (region (cells ms 1 (map (fun c => [c]) l) n X s)) (fun ps => getline_from ms tail (n + length l) (snd ps))).
  { induction l as [|c r IH]; intros tail X n s Hn.
    - cbn. now rewrite Nat.add_0_r.
    - cbn [app getline_from map cells].
      destruct (Z.eqb_spec c NL) as [E|_]; [exfalso; apply Hn; left; exact E|].
      replace (1 * (Z.of_nat n + 1)) with (Z.of_nat n + 1) by lia.
      destruct (region_tmprealloc (ms n) s (Z.of_nat n + 1)) as [[p s1]|f]; [|reflexivity].
      cbn [region bind andthen fst snd]. rewrite (IH tail (Some p)) by (intros K; apply Hn; now right).
      replace (n + length (c :: r))%nat with (S n + length r)%nat by (cbn [length]; lia).
      unfold poke. cbn [write_bytes]. now replace (1 * Z.of_nat n) with (Z.of_nat n) by lia. }
  intros tail n s. apply G.
Qed.
(** what follows a line *)
Definition tail_of (eof : bool) (r : list Z) : list Z := if eof then [] else NL :: r.
Lemma getline_end ms n s eof r : (eof = true -> r = []) ->
  getline_from ms (tail_of eof r) n s =
  andthen (region (region_alloc (ms n) s (Z.of_nat n + 1))) (fun ps =>
  Got (fst ps, r, eof, poke (snd ps) (fst ps + Z.of_nat n) 0)).
Proof. intros H. destruct eof; [rewrite (H eq_refl)|]; reflexivity. Qed.

Lemma concat_single {A} (l : list A) : concat (map (fun c => [c]) l) = l.
Proof. induction l; cbn; congruence. Qed.

(** a line that fits is copied into the region *)
Lemma getline_fits ms l eof r s c cs :
  rchunks s = c :: cs -> cend c <= 2 ^ 63 -> ~ In 10 l -> (eof = true -> r = []) ->
  rhead s + size l + 1 <= cend c ->
  getline ms (l ++ tail_of eof r) s =
  Got (rhead s, r, eof, mkR (alignptr (rhead s + size l + 1)) (rchunks s) (write_bytes (rmem s) (rhead s) (l ++ [0]))).
Proof.
  intros Hc He Hn Hr Hfit. unfold getline, size in *. rewrite getline_cells by exact Hn.
  erewrite cells_fit; try eassumption; try lia.
  2:{ apply Forall_forall. intros it Hi. apply in_map_iff in Hi. destruct Hi as (x & <- & _). reflexivity. }
  2:{ rewrite map_length. lia. }
  cbn [region andthen snd]. rewrite getline_end by exact Hr. rewrite concat_single. cbn [Nat.add].
  unfold region_alloc. cbn [rchunks rhead]. rewrite Hc.
  assert (W64 = 2 ^ 64) by reflexivity.
  destruct (Z.leb_spec W64 (rhead s + (Z.of_nat (length l) + 1))); [lia|].
  destruct (Z.ltb_spec (cend c) (rhead s + (Z.of_nat (length l) + 1))); [lia|].
  cbn [bind region andthen fst snd]. unfold poke. cbn [rhead rchunks rmem].
  replace (rhead s + 1 * Z.of_nat 0) with (rhead s) by lia.
  rewrite write_app. cbn [write_bytes]. rewrite <- Z.add_assoc. reflexivity.
Qed.

(** the same as aa_mem_region_dup *)
Lemma dup_fits m s c cs src :
  rchunks s = c :: cs -> cend c <= 2 ^ 63 -> rhead s + Z.of_nat (length src) <= cend c ->
  region_dup m s src =
  Ok (rhead s, mkR (alignptr (rhead s + Z.of_nat (length src))) (rchunks s) (write_bytes (rmem s) (rhead s) src)).
Proof.
  intros Hc He Hfit. unfold region_dup, region_alloc. rewrite Hc.
  assert (W64 = 2 ^ 64) by reflexivity.
  destruct (Z.leb_spec W64 (rhead s + Z.of_nat (length src))); [lia|].
  destruct (Z.ltb_spec (cend c) (rhead s + Z.of_nat (length src))); [lia|]. cbn [bind]. now rewrite Hc.
Qed.

(** ** The top chunk of a region in use *)
Lemma top_facts s k : reach s k ->
  exists c cs, rchunks s = c :: cs /\ cend c <= 2 ^ 63 /\ cbase c <= rhead s /\ rhead s mod 16 = 0 /\
    cbase c mod 16 = 0 /\ 16 < cbase c /\ cbase c + 16 <= cend c /\ rhead s <= cend c + 15 /\
    (0 < region_freesize s -> region_freesize s = cend c - rhead s) /\
    region_topsize s = cend c - cbase c /\ Forall (apart c) cs /\
    (region_freesize s = 0 -> cend c <= rhead s).
Proof.
  intros Hr. destruct (reach_Inv _ _ Hr) as (c & cs & k1 & k2 & Hc & Hk & Hok & Hap & Hmod & Hh & Hs & Hl' & Hrd).
  exists c, cs. apply Forall_cons_iff in Hok. destruct Hok as [(O1 & O2 & O3 & O4) _].
  inversion Hap as [|? ? Ha _]; subst.
  unfold region_freesize, region_topsize. rewrite Hc.
  repeat split; try lia; try exact Ha; destruct (Z.leb_spec (cend c) (rhead s)); lia.
Qed.

Definition refuse : mallocF := fun _ _ => None.
Lemma refuse_ok : malloc_contract refuse.
Proof. intros live n a junk H. discriminate. Qed.

Lemma line_ok ms l eof r s k :
  reach s k -> ~ In 10 l -> (eof = true -> r = []) -> size l + 1 <= region_freesize s -> size l + 1 <= MAXREQ ->
  exists s', getline ms (l ++ tail_of eof r) s = Got (region_ptr s, r, eof, s') /\
    rchunks s' = rchunks s /\ reach s' (string_at (region_ptr s) l :: k).
Proof.
  intros Hr Hn He Hf Hx. destruct (top_facts s k Hr) as (c & cs & Hc & H1 & H2 & H3 & H4 & H5 & H6 & H7 & H8 & H9 & _).
  assert (0 <= size l) by (unfold size; lia). rewrite H8 in Hf by lia.
  eexists. split; [|split; [|]].
  - apply (getline_fits _ _ _ _ _ c cs); try assumption. unfold region_ptr. lia.
  - reflexivity.
  - apply (reach_step refuse s k (ODup (l ++ [0])) (region_ptr s)); [exact Hr|exact refuse_ok| |].
    + unfold legal. rewrite app_length. cbn [length]. unfold size in *. lia.
    + cbn [region_op]. rewrite (dup_fits _ _ c cs); try assumption; [|rewrite app_length; cbn [length]; unfold size in *; lia].
      rewrite app_length. cbn [length]. unfold region_ptr, size.
      replace (Z.of_nat (length l + 1)) with (Z.of_nat (length l) + 1) by lia. now rewrite Z.add_assoc.
Qed.

(** ** Growing *)
(** the tmprealloc that does not fit, in a chunk that is partly used: what it does exactly *)
Definition good (s : rstate) (c : chunk) (cs : list chunk) : Prop :=
  rchunks s = c :: cs /\ cend c <= 2 ^ 63 /\ cbase c mod 16 = 0 /\ 16 < cbase c /\ cbase c + 16 <= cend c.
Lemma realloc_grows m s c cs z :
  malloc_contract m -> good s c cs -> cbase c < rhead s < cend c ->
  cend c - rhead s < z <= 2 * (cend c - cbase c) -> z <= MAXREQ ->
  region_tmprealloc m s z = Fault NoMem \/
  exists s' d, region_tmprealloc m s z = Ok (rhead s', s') /\
    rchunks s' = d :: c :: cs /\ rhead s' = cbase d /\ cend d <= 2 ^ 63 /\
    cend d - cbase d >= 2 * (cend c - cbase c) + 16 /\ cbase d mod 16 = 0 /\ 16 < cbase d /\
    (forall x, In x (c :: cs) -> apart d x) /\
    (forall i, 0 <= i < cend c - rhead s -> rmem s' (cbase d + i) = rmem s (rhead s + i)) /\
    (forall x, x < cbase d \/ cend d <= x -> rmem s' x = rmem s x).
Proof.
  intros Hm (Hc & H1 & H4 & H5 & H6) Hh Hz HM. unfold MAXREQ in HM.
  assert (W : W64 = 2 ^ 64) by reflexivity.
  unfold region_tmprealloc, region_tmpalloc, region_grow, node_alloc. rewrite Hc.
  destruct (Z.leb_spec W64 (rhead s + z)); [lia|].
  destruct (Z.ltb_spec (cend c) (rhead s + z)); [|lia].
  rewrite (alignptr_id (cbase c)) by exact H4.
  destruct (Z.eqb_spec (cbase c) (rhead s)); [lia|].
  set (ns := Z.max (wrap64 (2 * (cend c - cbase c))) (wrap64 (z + MEMREG_ALIGN))).
  assert (Hns : 2 * (cend c - cbase c) <= ns /\ z + 16 <= ns).
  { unfold ns, MEMREG_ALIGN in *. assert (wrap64 (2 * (cend c - cbase c)) = 2 * (cend c - cbase c)) by (unfold wrap64; apply Z.mod_small; lia).
    assert (wrap64 (z + 16) = z + 16) by (unfold wrap64; apply Z.mod_small; lia). lia. }
  destruct (m (c :: cs) (ns + MEMREG_ALIGN)) as [[a junk]|] eqn:E; [|now left].
  destruct (Hm _ _ _ _ E) as (A1 & A2 & A3 & A4). unfold MEMREG_ALIGN in *.
  right. cbn [bind rhead rchunks region_freesize cbase cend]. rewrite (alignptr_id a) by exact A1.
  unfold region_freesize. cbn [rchunks rhead cend cbase].
  destruct (Z.leb_spec (a + ns + 16) a); [lia|].
  unfold assert_then. destruct (Z.leb_spec z (a + ns + 16 - a)); [|lia].
  rewrite A1. cbn [Z.eqb bind rhead rchunks tl]. 
  assert (Hac : cend c <= a - 16 \/ a + (ns + 16) <= cbase c - 16) by (apply A4; now left).
  destruct (Z.eqb_spec (rhead s) a); [lia|].
  assert (Hw : wrap64 (cend c - rhead s) = cend c - rhead s) by (unfold wrap64; rewrite Z.mod_small; lia).
  rewrite Hw. destruct (Z.eqb_spec (cend c - rhead s) 0); [lia|].
  destruct (Z.ltb_spec (cend c) (rhead s)); [lia|].
  cbn [existsb]. rewrite !Z.eqb_refl. cbn [andb orb negb].
  match goal with |- exists s' d, Ok (_, ?S) = _ /\ _ => exists S end. exists (mkChunk a (a + ns + 16)). cbn [rhead rchunks rmem cbase cend].
  split; [reflexivity|]. split; [reflexivity|]. split; [reflexivity|]. split; [lia|]. split; [lia|]. split; [exact A1|]. split; [exact A2|].
  split; [|split].
  - intros x Hx. unfold apart. cbn [cbase cend]. destruct (A4 x Hx); lia.
  - intros i Hi. rewrite fill_in by lia. rewrite fill_out by lia. f_equal. lia.
  - intros x Hx. rewrite fill_out by lia. rewrite fill_out by lia. reflexivity.
Qed.

Lemma cells_app ms w a : forall b n X s,
  cells ms w (a ++ b) n X s = bind (cells ms w a n X s) (fun r => cells ms w b (n + length a) (fst r) (snd r)).
Proof.
  induction a as [|it r IH]; intros b n X s.
  - cbn. now rewrite Nat.add_0_r.
  - cbn [app cells length]. destruct (region_tmprealloc (ms n) s (w * (Z.of_nat n + 1))) as [[p s1]|f]; [|reflexivity].
    cbn [bind fst snd]. rewrite IH. now replace (S n + length r)%nat with (n + S (length r))%nat by lia.
Qed.
Lemma write_nth mem a l i v : nth_error l i = Some v -> write_bytes mem a l (a + Z.of_nat i) = v.
Proof. apply write_bytes_in. Qed.
Lemma concat_len w (its : list (list Z)) :
  Forall (fun it => Z.of_nat (length it) = w) its -> Z.of_nat (length (concat its)) = w * Z.of_nat (length its).
Proof.
  induction 1 as [|it r Hi HF IH]; cbn [concat length]; [lia|]. rewrite app_length. nia.
Qed.
(** the cells that fit, and the first one that does not *)
Lemma split_at w f (its : list (list Z)) : 0 < w -> 0 <= f -> f < w * Z.of_nat (length its) ->
  exists a it b, its = a ++ it :: b /\ w * Z.of_nat (length a) <= f < w * (Z.of_nat (length a) + 1).
Proof.
  intros Hw Hf Hl. set (j := Z.to_nat (f / w)).
  assert (Hj : Z.of_nat j = f / w) by (apply Z2Nat.id, Z.div_pos; lia).
  pose proof (Z.mul_div_le f w Hw). pose proof (Z.mul_succ_div_gt f w Hw).
  assert (Hlt : (j < length its)%nat) by nia.
  destruct (nth_error its j) as [it|] eqn:E; [|apply nth_error_None in E; lia].
  apply nth_error_split in E. destruct E as (a & b & -> & La). exists a, it, b. split; [reflexivity|]. rewrite La. nia.
Qed.

Lemma cells_grow ms w its s c cs :
  (forall n, malloc_contract (ms n)) -> good s c cs -> cbase c < rhead s < cend c ->
  0 < w -> Forall (fun it => Z.of_nat (length it) = w) its ->
  cend c - rhead s < w * Z.of_nat (length its) <= 2 * (cend c - cbase c) -> w * Z.of_nat (length its) <= MAXREQ ->
  cells ms w its 0 None s = Fault NoMem \/
  exists s' d, cells ms w its 0 None s = Ok (Some (rhead s'), s') /\ good s' d (c :: cs) /\ rhead s' = cbase d /\
    cend d - cbase d >= 2 * (cend c - cbase c) + 16 /\ (forall x, In x (c :: cs) -> apart d x) /\
    (forall i v, nth_error (concat its) i = Some v -> rmem s' (rhead s' + Z.of_nat i) = v) /\
    (forall x, x < rhead s \/ cend c <= x -> x < cbase d \/ cend d <= x -> rmem s' x = rmem s x).
Proof.
  intros Hm Hg Hh Hw HF Hl HM. pose proof Hg as (Hc & H1 & H4 & H5 & H6).
  destruct (split_at w (cend c - rhead s) its Hw) as (a & it & b & -> & Ha); [lia|lia|].
  apply Forall_app in HF. destruct HF as [Fa Fb]. pose proof Fb as Fb'. apply Forall_cons_iff in Fb'. destruct Fb' as [Fi Fb'].
  rewrite app_length in Hl, HM. cbn [length] in Hl, HM.
  rewrite cells_app, (cells_fit ms w a 0 None s c cs Hc H1 Hw Fa) by lia.
  cbn [bind fst snd cells Nat.add].
  set (X1 := match a with [] => None | _ => Some (rhead s) end). clearbody X1.
  set (s1 := mkR (rhead s) (rchunks s) (write_bytes (rmem s) (rhead s + w * Z.of_nat 0) (concat a))).
  assert (Hg1 : good s1 c cs) by (unfold good, s1; cbn [rchunks]; auto).
  destruct (realloc_grows (ms (length a)) s1 c cs (w * (Z.of_nat (length a) + 1)) (Hm _) Hg1) as [E|(s2 & d & E & C2 & Hd & E2 & S2 & M2 & Hbd & A2 & In2 & Out2)].
  { unfold s1; cbn [rhead]. lia. } { unfold s1; cbn [rhead]. split; [lia|]. nia. } { nia. }
  { left. rewrite E. reflexivity. }
  rewrite E. cbn [bind fst snd].
  assert (Hcd : apart d c) by (apply A2; now left).
  set (s3 := mkR (rhead s2) (rchunks s2) (write_bytes (rmem s2) (rhead s2 + w * Z.of_nat (length a)) it)).
  right. rewrite (cells_fit ms w b (S (length a)) (Some (rhead s2)) s3 d (c :: cs)); try assumption.
  2:{ unfold s3. cbn [rhead]. nia. }
  eexists. exists d. split; [|].
  { unfold s3. cbn [rhead]. f_equal. f_equal. destruct b; reflexivity. }
  cbn [rhead rchunks rmem]. unfold s3. cbn [rhead rchunks rmem].
  pose proof (concat_len w a Fa) as La. pose proof (concat_len w b Fb') as Lb.
  assert (K1 : w * Z.of_nat (S (length a)) = w * Z.of_nat (length a) + w) by lia.
  assert (K2 : w * (Z.of_nat (length a) + 1) = w * Z.of_nat (length a) + w) by lia.
  assert (K3 : w * (Z.of_nat (length a + S (length b))) = w * Z.of_nat (length a) + w + w * Z.of_nat (length b)) by lia.
  rewrite K2 in Ha. rewrite K3 in Hl. rewrite K1. clear K1 K2 K3 HM.
  set (wa := w * Z.of_nat (length a)) in *. set (wb := w * Z.of_nat (length b)) in *.
  assert (0 <= wa /\ 0 <= wb) by lia. clearbody wa wb.
  split; [|split; [exact Hd|split; [exact S2|split; [exact A2|split]]]].
  - unfold good. cbn [rchunks]. repeat split; try assumption. lia.
  - intros i v Hi. rewrite concat_app in Hi. cbn [concat] in Hi.
    assert (Hi' : (i < length (concat a ++ it ++ concat b))%nat) by (apply nth_error_Some; congruence).
    rewrite !app_length in Hi'.
    destruct (lt_dec i (length (concat a))) as [L1|L1].
    + rewrite nth_error_app1 in Hi by exact L1.
      rewrite write_bytes_out by lia. rewrite write_bytes_out by lia.
      rewrite Hd. rewrite In2 by (unfold s1; cbn [rhead]; lia). unfold s1. cbn [rhead rmem].
      replace (rhead s + w * Z.of_nat 0) with (rhead s) by lia. apply write_nth. exact Hi.
    + rewrite nth_error_app2 in Hi by lia.
      destruct (lt_dec (i - length (concat a)) (length it)) as [L2|L2].
      * rewrite nth_error_app1 in Hi by exact L2. rewrite write_bytes_out by lia.
        replace (rhead s2 + Z.of_nat i) with (rhead s2 + wa + Z.of_nat (i - length (concat a))) by lia.
        apply write_nth. exact Hi.
      * rewrite nth_error_app2 in Hi by lia.
        replace (rhead s2 + Z.of_nat i) with (rhead s2 + (wa + w) + Z.of_nat (i - length (concat a) - length it)) by lia.
        apply write_nth. exact Hi.
  - intros x Hx1 Hx2. unfold apart in Hcd.
    rewrite write_bytes_out by lia. rewrite write_bytes_out by lia. rewrite Out2 by exact Hx2.
    unfold s1. cbn [rmem]. apply write_bytes_out. lia.
Qed.

(** a chunk that holds only the scratch space is given up while it is still read *)
Lemma cells_freed ms w its s c cs :
  (forall n, malloc_contract (ms n)) -> good s c cs -> Forall (apart c) cs -> rhead s = cbase c ->
  0 < w -> Forall (fun it => Z.of_nat (length it) = w) its ->
  cend c - rhead s < w * Z.of_nat (length its) -> w * Z.of_nat (length its) <= MAXREQ ->
  (forall n live z a junk, ms n live z = Some (a, junk) -> a <> cbase c) ->
  cells ms w its 0 None s = Fault NoMem \/ cells ms w its 0 None s = Fault UseAfterFree.
Proof.
  intros Hm Hg Hap Hh Hw HF Hl HM Hne. pose proof Hg as (Hc & H1 & H4 & H5 & H6).
  destruct (split_at w (cend c - rhead s) its Hw) as (a & it & b & -> & Ha); [lia|lia|].
  apply Forall_app in HF. destruct HF as [Fa Fb].
  rewrite app_length in Hl, HM. cbn [length] in Hl, HM. unfold MAXREQ in HM.
  rewrite cells_app, (cells_fit ms w a 0 None s c cs Hc H1 Hw Fa) by lia.
  cbn [bind fst snd cells Nat.add].
  unfold region_tmprealloc, region_tmpalloc, region_grow, node_alloc. cbn [rchunks rhead rmem]. rewrite Hc.
  set (z := w * (Z.of_nat (length a) + 1)) in *. assert (Hz : 0 < z <= MAXREQ) by (unfold z, MAXREQ; nia). unfold MAXREQ in Hz.
  assert (W : W64 = 2 ^ 64) by reflexivity.
  destruct (Z.leb_spec W64 (rhead s + z)); [lia|].
  destruct (Z.ltb_spec (cend c) (rhead s + z)); [|lia].
  rewrite (alignptr_id (cbase c)) by exact H4. destruct (Z.eqb_spec (cbase c) (rhead s)); [|lia].
  set (ns := Z.max (wrap64 (2 * (cend c - cbase c))) (wrap64 (z + MEMREG_ALIGN))).
  assert (Hns : z + 16 <= ns).
  { unfold ns, MEMREG_ALIGN in *.
    assert (wrap64 (z + 16) = z + 16) by (unfold wrap64; apply Z.mod_small; lia). lia. }
  destruct (ms (length a) cs (ns + MEMREG_ALIGN)) as [[q junk]|] eqn:E; [|now left].
  destruct (Hm _ _ _ _ _ E) as (A1 & A2 & A3 & A4). unfold MEMREG_ALIGN in *.
  pose proof (Hne _ _ _ _ _ E) as Hqc.
  right. rewrite (alignptr_id q) by exact A1.
  unfold region_freesize, assert_then. cbn [bind rchunks rhead cend cbase].
  destruct (Z.leb_spec (q + ns + 16) q); [lia|]. destruct (Z.leb_spec z (q + ns + 16 - q)); [|lia].
  rewrite A1. cbn [Z.eqb bind rhead rchunks tl].
  destruct (Z.eqb_spec (rhead s) q); [lia|].
  assert (Hw' : wrap64 (cend c - rhead s) = cend c - rhead s) by (unfold wrap64; rewrite Z.mod_small; lia).
  rewrite Hw'. destruct (Z.eqb_spec (cend c - rhead s) 0); [lia|].
  destruct (Z.ltb_spec (cend c) (rhead s)); [lia|].
  assert (Hex : existsb (fun d => (cbase d =? cbase c) && (cend d =? cend c)) cs = false).
  { clear - Hap H6. induction Hap as [|d r Hd Hr IH]; [reflexivity|]. cbn [existsb]. rewrite IH, orb_false_r.
    unfold apart in Hd. destruct (Z.eqb_spec (cbase d) (cbase c)); [|reflexivity].
    destruct (Z.eqb_spec (cend d) (cend c)); [lia|reflexivity]. }
  rewrite Hex. reflexivity.
Qed.
