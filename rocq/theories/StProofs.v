(** Proofs about robot states: allocation, copies, comparison, printing. *)
From Coq Require Import List Reals Arith Bool Lra Lia.
Import ListNotations.
From Verif Require Import TrModel StModel StSpec.
Open Scope nat_scope.

Lemma part_eq_ok j k : part_eq j k = true <-> j = k.
Proof. split; [destruct j, k; cbn; congruence | intros ->; destruct k; reflexivity]. Qed.
Lemma set_same f k p : set_ptr f k p k = p.
Proof. unfold set_ptr. destruct k; reflexivity. Qed.
Lemma set_other f j k p : j <> k -> set_ptr f k p j = f j.
Proof.
  intro D. unfold set_ptr. destruct (part_eq j k) eqn:E; [|reflexivity].
  apply part_eq_ok in E. contradiction.
Qed.

(** ** memory *)
Lemma grew_refl H : grew H H.
Proof. exists []. now rewrite app_nil_r. Qed.
Lemma grew_trans A B C : grew A B -> grew B C -> grew A C.
Proof. intros [x ->] [y ->]. exists (x ++ y). now rewrite app_assoc. Qed.
Lemma grew_one H cs : grew H (fst (new_array H cs)).
Proof. exists [cs]. reflexivity. Qed.
Lemma grew_nth A B i : grew A B -> i < length A -> nth_error B i = nth_error A i.
Proof. intros [x ->] L. now apply nth_error_app1. Qed.
Lemma grew_len A B : grew A B -> length A <= length B.
Proof. intros [x ->]. rewrite app_length. lia. Qed.

Lemma cells_in H a cs : cells_at H a cs -> fst a < length H.
Proof. intros (b & c & E & _). apply nth_error_Some. congruence. Qed.
Lemma cells_same H H' a cs : nth_error H' (fst a) = nth_error H (fst a) ->
  cells_at H a cs -> cells_at H' a cs.
Proof. intros E (b & c & E1 & E2). exists b, c. split; [congruence|exact E2]. Qed.
Lemma cells_grew H H' a cs : grew H H' -> cells_at H a cs -> cells_at H' a cs.
Proof. intros G C. apply (cells_same H); [apply (grew_nth _ _ _ G), (cells_in _ _ _ C)|exact C]. Qed.
Lemma cells_new H cs : cells_at (fst (new_array H cs)) (length H, 0) cs.
Proof.
  exists [], []. cbn. rewrite app_nil_r. split; [|reflexivity].
  rewrite nth_error_app2 by lia. now rewrite Nat.sub_diag.
Qed.
Lemma rd_cells_ok H a cs : cells_at H a cs -> rd_cells H a (length cs) = Ok cs.
Proof.
  intros (b & c & E & L). unfold rd_cells. rewrite E, <- L.
  replace (length b + length cs <=? length (b ++ cs ++ c)) with true
    by (symmetry; apply Nat.leb_le; rewrite !app_length; lia).
  f_equal. rewrite skipn_app, skipn_all, Nat.sub_diag. cbn.
  rewrite firstn_app, Nat.sub_diag, firstn_all. cbn. apply app_nil_r.
Qed.
Lemma cells_tail H a c cs : cells_at H a (c :: cs) -> cells_at H (next_addr a) cs.
Proof.
  intros (b & d & E & L). exists (b ++ [c]), d. cbn. split.
  - rewrite E. f_equal. now rewrite <- app_assoc.
  - rewrite app_length. cbn. lia.
Qed.
Lemma rd_ok H a x cs : cells_at H a (Some x :: cs) -> rd H a = Ok x.
Proof.
  intros (b & d & E & L). unfold rd, rd_cell. rewrite E, <- L, nth_error_app2 by lia.
  rewrite Nat.sub_diag. reflexivity.
Qed.
Lemma rd_none H a cs : cells_at H a (None :: cs) -> rd H a = Undef.
Proof.
  intros (b & d & E & L). unfold rd, rd_cell. rewrite E, <- L, nth_error_app2 by lia.
  rewrite Nat.sub_diag. reflexivity.
Qed.

Lemma shows_grew H H' s V : grew H H' -> shows H s V -> shows H' s V.
Proof.
  intros G (A & B & C). repeat split; [exact A|exact B|]. intro k. specialize (C k).
  destruct (c_ptr s k), (v_arr V k); try exact C. destruct C. split; [now apply (cells_grew H)|assumption].
Qed.
Lemma shows_same H H' s V :
  (forall k a, c_ptr s k = Some a -> nth_error H' (fst a) = nth_error H (fst a)) ->
  shows H s V -> shows H' s V.
Proof.
  intros G (A & B & C). repeat split; [exact A|exact B|]. intro k. specialize (C k). specialize (G k).
  destruct (c_ptr s k) as [a|], (v_arr V k); try exact C. destruct C.
  split; [now apply (cells_same H); [apply G|]|assumption].
Qed.

(** ** allocation *)
Lemma alloc_loop_ok nq ntf ks : forall H f H' f',
  alloc_loop nq ntf ks H f = (H', f') -> NoDup ks ->
  grew H H' /\ length H' = length H + length ks /\
  (forall k, ~ In k ks -> f' k = f k) /\
  (forall k i, nth_error ks i = Some k -> f' k = Some (length H + i, 0) /\
     nth_error H' (length H + i) = Some (alloc_cells nq ntf k)).
Proof.
  induction ks as [|k ks IH]; cbn [alloc_loop]; intros H f H' f' E ND.
  - injection E as <- <-. split; [apply grew_refl|]. split; [cbn; lia|]. split; [reflexivity|].
    intros k [|i]; discriminate.
  - cbn in E. inversion ND as [|? ? NI ND']; subst. destruct (IH _ _ _ _ E ND') as (G & L & O & S).
    rewrite app_length in L, S. cbn [length] in L, S.
    assert (G0 : grew H H') by (apply (grew_trans _ (H ++ [alloc_cells nq ntf k])); [exists [alloc_cells nq ntf k]; reflexivity|exact G]).
    split; [exact G0|]. split; [cbn; lia|]. split.
    + intros j J. rewrite O by (intro; apply J; now right). apply set_other. intros ->. apply J. now left.
    + intros j [|i] J.
      * cbn in J. injection J as <-. rewrite (O k NI), set_same, Nat.add_0_r. split; [reflexivity|].
        rewrite (grew_nth _ _ _ G) by (rewrite app_length; cbn; lia).
        rewrite nth_error_app2 by lia. now rewrite Nat.sub_diag.
      * cbn in J. destruct (S j i J) as [A B].
        replace (length H + Datatypes.S i) with (length H + 1 + i) by lia. now split.
Qed.
Lemma alloc_nodup : NoDup alloc_parts.
Proof. unfold alloc_parts. repeat constructor; cbn; intuition discriminate. Qed.
Lemma alloc_all k : exists i, nth_error alloc_parts i = Some k.
Proof.
  destruct k; [exists 0|exists 1|exists 2|exists 3|exists 4|exists 5|exists 6|exists 7|exists 8]; reflexivity.
Qed.
Lemma c86_alloc H nq ntf H' s : state_alloc H nq ntf = (H', s) ->
  grew H H' /\ made_between H H' s /\ separate s /\
  shows H' s (mkV nq ntf (fun k => Some (match k with
    | Pq | Pdq | Pddq => repeat (Some 0%R) nq
    | _ => repeat None (size_of nq ntf k) end))).
Proof.
  unfold state_alloc. destruct (alloc_loop nq ntf alloc_parts H no_ptr) as [H1 f] eqn:E.
  intro X. injection X as <- <-.
  destruct (alloc_loop_ok _ _ _ _ _ _ _ E alloc_nodup) as (G & L & _ & S).
  split; [exact G|]. split; [|split].
  - intros k a. cbn. destruct (alloc_all k) as [i I]. destruct (S _ _ I) as [A _]. rewrite A.
    intro X. injection X as <-. cbn. assert (i < length alloc_parts) by (apply nth_error_Some; congruence). lia.
  - intros j k a b. cbn. destruct (alloc_all k) as [i I], (alloc_all j) as [i' I'].
    destruct (S _ _ I) as [A _], (S _ _ I') as [A' _]. rewrite A, A'. intros X Y. injection X as <-. injection Y as <-.
    cbn. intro. assert (i = i') by lia. subst. congruence.
  - split; [reflexivity|]. split; [reflexivity|]. intro k. cbn.
    destruct (alloc_all k) as [i I]. destruct (S _ _ I) as [A B]. rewrite A. split.
    + exists [], []. split; [|reflexivity]. cbn. rewrite app_nil_r, B. destruct k; reflexivity.
    + destruct k; now rewrite repeat_length.
Qed.

(** ** copies *)
Lemma clone_loop_ok s V : forall ks H f, shows H s V -> NoDup ks ->
  exists H' f', clone_loop s ks H f = Ok (H', f') /\ grew H H' /\
  (forall k, ~ In k ks -> f' k = f k) /\
  (forall k, In k ks -> match f' k, v_arr V k with
     | None, None => True
     | Some a, Some cs => cells_at H' a cs /\ length H <= fst a < length H' /\ snd a = 0
     | _, _ => False end) /\
  (forall j k a b, In j ks -> In k ks -> f' j = Some a -> f' k = Some b -> fst a = fst b -> j = k).
Proof.
  induction ks as [|k ks IH]; cbn [clone_loop]; intros H f Sh ND.
  - exists H, f. repeat split; try (intros; contradiction). apply grew_refl.
  - inversion ND as [|? ? NI ND']; subst.
    pose proof (proj2 (proj2 Sh) k) as K. unfold clone_helper.
    destruct (c_ptr s k) as [a|] eqn:P, (v_arr V k) as [cs|] eqn:C; try contradiction.
    + destruct K as [K1 K2].
      assert (N : clone_cnt s k = length cs).
      { rewrite K2. destruct Sh as (Q1 & Q2 & _). unfold clone_cnt, size_of. rewrite Q1, Q2. now destruct k. }
      rewrite N, (rd_cells_ok _ _ _ K1). cbn [rbind].
      assert (Sh1 : shows (fst (new_array H cs)) s V) by (apply (shows_grew H); [apply grew_one|exact Sh]).
      destruct (IH _ (set_ptr f k (snd (new_array H cs))) Sh1 ND') as (H' & f' & E & G & O & D & U).
      exists H', f'. split; [exact E|]. cbn [fst] in G, D.
      assert (L1 : length (fst (new_array H cs)) = length H + 1) by (cbn; rewrite app_length; reflexivity).
      pose proof (grew_len _ _ G) as L2.
      split; [apply (grew_trans _ _ _ (grew_one H cs) G)|]. split; [|split].
      * intros j J. rewrite O by (intro; apply J; now right). apply set_other. intros ->. apply J. now left.
      * intros j [<-|J].
        -- rewrite (O _ NI), set_same, C. cbn [snd new_array fst]. split; [|lia].
           apply (cells_grew (fst (new_array H cs))); [exact G|apply cells_new].
        -- specialize (D j J). destruct (f' j), (v_arr V j); try exact D. intuition lia.
      * intros i j x y [<-|I] [<-|J] X Y XY; try reflexivity.
        -- rewrite (O _ NI), set_same in X. cbn in X. injection X as <-. cbn in XY.
           specialize (D j J). rewrite Y in D. destruct (v_arr V j); [|contradiction]. lia.
        -- rewrite (O _ NI), set_same in Y. cbn in Y. injection Y as <-. cbn in XY.
           specialize (D i I). rewrite X in D. destruct (v_arr V i); [|contradiction]. lia.
        -- now apply (U i j x y).
    + cbn [rbind fst snd].
      destruct (IH H (set_ptr f k None) Sh ND') as (H' & f' & E & G & O & D & U).
      exists H', f'. split; [exact E|]. split; [exact G|]. split; [|split].
      * intros j J. rewrite O by (intro; apply J; now right). apply set_other. intros ->. apply J. now left.
      * intros j [<-|J]; [|now apply D]. now rewrite (O _ NI), set_same, C.
      * intros i j x y [<-|I] [<-|J] X Y XY; try reflexivity; try (rewrite (O _ NI), set_same in *; discriminate).
        now apply (U i j x y).
Qed.
Lemma clone_nodup : NoDup clone_parts.
Proof. unfold clone_parts. repeat constructor; cbn; intuition discriminate. Qed.
Lemma clone_all k : In k clone_parts.
Proof. destruct k; cbn; intuition. Qed.
Lemma c86_clone H s V : shows H s V ->
  exists H' s', state_clone H s = Ok (H', s') /\ grew H H' /\ made_between H H' s' /\ separate s' /\
    shows H' s' V /\ shows H' s V /\
    forall H2, agree_on (length H) (length H') H' H2 -> shows H2 s' V.
Proof.
  intro Sh. destruct (clone_loop_ok s V clone_parts H no_ptr Sh clone_nodup) as (H' & f' & E & G & O & D & U).
  exists H', (mkC (c_nq s) (c_ntf s) f'). unfold state_clone. rewrite E. cbn [rbind fst snd].
  assert (M : made_between H H' (mkC (c_nq s) (c_ntf s) f')).
  { intros k a. cbn. intro X. specialize (D k (clone_all k)). rewrite X in D. destruct (v_arr V k); [|contradiction]. intuition. }
  assert (S' : shows H' (mkC (c_nq s) (c_ntf s) f') V).
  { destruct Sh as (A & B & C). split; [exact A|]. split; [exact B|]. intro k. cbn.
    specialize (D k (clone_all k)). specialize (C k). destruct (f' k), (v_arr V k); try exact D.
    split; [apply D|]. destruct (c_ptr s k); [apply C|contradiction]. }
  split; [reflexivity|]. split; [exact G|]. split; [exact M|]. split.
  - intros j k a b X Y. cbn in X, Y. apply (U j k a b (clone_all j) (clone_all k) X Y).
  - split; [exact S'|]. split; [now apply (shows_grew H)|].
    intros H2 A. apply (shows_same H'); [|exact S']. intros k a X. apply A. now apply (M k).
Qed.

(** ** comparison *)
Lemma veq_at_ok H : forall cs ds a b, cells_at H a cs -> cells_at H b ds -> length cs = length ds ->
  Forall (fun c => c <> None) cs -> Forall (fun c => c <> None) ds ->
  exists r, veq_at H (length cs) a b aa_epsilon = Ok r /\ (r = true <-> Forall2 near_cell cs ds).
Proof.
  induction cs as [|c cs IH]; intros [|d ds] a b A B L NC ND; try discriminate; cbn [veq_at length].
  - exists true. split; [reflexivity|]. split; [constructor|reflexivity].
  - inversion NC as [|? ? C1 C2]; inversion ND as [|? ? D1 D2]; subst.
    destruct c as [x|]; [|congruence]. destruct d as [y|]; [|congruence].
    rewrite (rd_ok _ _ _ _ A), (rd_ok _ _ _ _ B). cbn [rbind].
    destruct (IH ds _ _ (cells_tail _ _ _ _ A) (cells_tail _ _ _ _ B) ltac:(cbn in L; lia) C2 D2) as (r & E & I).
    unfold feq, Rle_b. destruct (Rle_dec (Rabs (x - y)) aa_epsilon) as [l|n].
    + exists r. split; [exact E|]. rewrite I. split; [intro; constructor; [exact l|assumption]|].
      intro F. now inversion F.
    + exists false. split; [reflexivity|]. split; [discriminate|]. intro F. inversion F as [|? ? ? ? N1 N2]; subst. contradiction.
Qed.
Definition near_part (V W : view) (k : part) : Prop :=
  match v_arr V k, v_arr W k with
  | None, None => True
  | Some a, Some b => Forall2 near_cell a b
  | _, _ => False
  end.
Lemma same_part_ok H s t V W k : shows H s V -> shows H t W -> stored V -> stored W ->
  v_nq V = v_nq W -> v_ntf V = v_ntf W -> compared k ->
  exists r, same_part H (c_ptr s k) (c_ptr t k) (size_of (v_nq V) (v_ntf V) k) = Ok r /\
            (r = true <-> near_part V W k).
Proof.
  intros (_ & _ & A) (_ & _ & B) SV SW Q T K. specialize (A k). specialize (B k). specialize (SV k). specialize (SW k).
  unfold same_part, near_part.
  destruct (c_ptr s k) as [a|], (v_arr V k) as [cs|]; try contradiction;
  destruct (c_ptr t k) as [b|], (v_arr W k) as [ds|]; try contradiction.
  - destruct A as [A1 A2], B as [B1 B2]. rewrite <- A2. apply veq_at_ok; auto. rewrite A2, B2, Q, T. reflexivity.
  - exists false. split; [reflexivity|]. split; [discriminate|intros []].
  - exists false. split; [reflexivity|]. split; [discriminate|intros []].
  - exists true. split; [reflexivity|]. tauto.
Qed.
Lemma same_parts_ok H s t V W : shows H s V -> shows H t W -> stored V -> stored W ->
  v_nq V = v_nq W -> v_ntf V = v_ntf W -> forall ks,
  (forall k, In k ks -> compared k) ->
  exists r, same_parts H s t (map (fun k => (k, size_of (v_nq V) (v_ntf V) k)) ks) = Ok r /\
            (r = true <-> forall k, In k ks -> near_part V W k).
Proof.
  intros A B SV SW Q T. induction ks as [|k ks IH]; intro K; cbn [map same_parts].
  - exists true. split; [reflexivity|]. split; [intros _ k []|reflexivity].
  - destruct (same_part_ok _ _ _ _ _ k A B SV SW Q T (K k (or_introl eq_refl))) as (r & E & I).
    rewrite E. cbn [rbind]. destruct (IH (fun j J => K j (or_intror J))) as (r' & E' & I').
    destruct r.
    + exists r'. split; [exact E'|]. rewrite I'. split.
      * intros F j [<-|J]; [now apply I|now apply F].
      * intros F j J. apply F. now right.
    + exists false. split; [reflexivity|]. split; [discriminate|].
      intro F. exfalso. assert (false = true) by (apply I, F; now left). discriminate.
Qed.
Definition eq_parts : list part := [Pq; Pdq; Pddq; PX; PdX; PddX].
Lemma eq_parts_ok k : In k eq_parts <-> compared k.
Proof. unfold compared. destruct k; cbn; intuition discriminate. Qed.
Lemma c86_eq H s t V W : shows H s V -> shows H t W -> stored V -> stored W ->
  exists r, state_eqb H s t = Ok r /\ (r = true <-> near V W).
Proof.
  intros A B SV SW. pose proof A as (A1 & A2 & _). pose proof B as (B1 & B2 & _).
  unfold state_eqb. rewrite A1, A2, B1, B2.
  destruct (Nat.eqb_spec (v_nq V) (v_nq W)) as [Q|Q]; cbn [negb orb].
  - destruct (Nat.eqb_spec (v_ntf V) (v_ntf W)) as [T|T]; cbn [negb].
    + destruct (same_parts_ok _ _ _ _ _ A B SV SW Q T eq_parts (fun k => proj1 (eq_parts_ok k))) as (r & E & I).
      exists r. split; [exact E|]. rewrite I. unfold near. split.
      * intro F. split; [exact Q|]. split; [exact T|]. intros k K. now apply F, eq_parts_ok.
      * intros (_ & _ & F) k K. now apply F, eq_parts_ok.
    + exists false. split; [reflexivity|]. split; [discriminate|]. now intros (_ & ? & _).
  - exists false. split; [reflexivity|]. split; [discriminate|]. now intros (? & _ & _).
Qed.
Lemma near_refl V : stored V -> near V V.
Proof.
  intro SV. split; [reflexivity|]. split; [reflexivity|]. intros k K. specialize (SV k).
  destruct (v_arr V k) as [cs|]; [|exact I]. specialize (SV cs K eq_refl).
  induction SV as [|[x|] l N _ IH]; [constructor| |congruence].
  constructor; [|exact IH]. cbn. replace (x - x)%R with 0%R by lra. rewrite Rabs_R0. lra.
Qed.
Lemma near_sym V W : near V W -> near W V.
Proof.
  intros (A & B & C). split; [auto|]. split; [auto|]. intros k K. specialize (C k K).
  destruct (v_arr V k), (v_arr W k); try exact C.
  induction C as [|[x|] [y|] l m N _ IH]; try contradiction; constructor; [|exact IH].
  cbn in *. now rewrite Rabs_minus_sym.
Qed.
Lemma near_other V W X : (forall k, compared k -> v_arr V k = v_arr W k) -> v_nq V = v_nq W -> v_ntf V = v_ntf W ->
  near V X -> near W X.
Proof.
  intros E A B (P & Q & R). split; [congruence|]. split; [congruence|]. intros k K. rewrite <- (E k K). now apply R.
Qed.

(** ** printing *)
Lemma rd_vec_ok H : forall v a, cells_at H a (map Some v) -> rd_vec H a (length v) = Ok v.
Proof.
  induction v as [|x v IH]; intros a C; [reflexivity|]. cbn [rd_vec length].
  rewrite (rd_ok _ _ _ _ C). cbn [rbind]. now rewrite (IH _ (cells_tail _ _ _ _ C)).
Qed.
(** a line of an array that is given *)
Lemma dump_given H s V t p v n : shows H s V -> v_arr V p = Some (map Some v) -> length v = S n ->
  v_arr V t <> None -> dump_line H s t p (S n) = Ok [(t, v)].
Proof.
  intros (A & B & C) P L T. unfold dump_line. pose proof (C t) as Ct. pose proof (C p) as Cp. rewrite P in Cp.
  destruct (c_ptr s t); [|destruct (v_arr V t); congruence || contradiction].
  destruct (c_ptr s p); [|contradiction]. cbn [dump_vec]. rewrite <- L, (rd_vec_ok _ _ _ (proj1 Cp)). reflexivity.
Qed.
Lemma dump_missing H s V t p n : shows H s V -> v_arr V t = None -> dump_line H s t p n = Ok [].
Proof.
  intros (A & B & C) T. unfold dump_line. pose proof (C t) as Ct. rewrite T in Ct.
  destruct (c_ptr s t); [contradiction|reflexivity].
Qed.
Definition dump_parts : list (part * part) := [(Pq, Pq); (Pdq, Pdq); (Pddq, Pddq); (Peff, Pddq); (PX, PX); (PdX, PdX); (PddX, PddX)].
Definition shown_lines (given : part -> bool) (vals : part -> list R) (l : list (part * part)) : list (part * list R) :=
  flat_map (fun tp => if given (fst tp) then [(fst tp, vals (snd tp))] else []) l.
Lemma dump_lines_ok H s V (vals : part -> list R) : shows H s V ->
  forall l, (forall t p, In (t, p) l -> v_arr V t = None \/
     0 < size_of (v_nq V) (v_ntf V) p /\ v_arr V t <> None /\ v_arr V p = Some (map Some (vals p))) ->
  dump_lines H s (map (fun tp => (fst tp, snd tp, size_of (v_nq V) (v_ntf V) (snd tp))) l) =
  Ok (shown_lines (fun k => match v_arr V k with Some _ => true | None => false end) vals l).
Proof.
  intros Sh. induction l as [|[t p] l IH]; intro K; [reflexivity|]. cbn [map dump_lines fst snd].
  rewrite IH by (intros; apply K; now right). unfold shown_lines. cbn [flat_map fst snd].
  destruct (K t p (or_introl eq_refl)) as [T|[N [T P]]].
  - rewrite (dump_missing _ _ _ _ _ _ Sh T), T. reflexivity.
  - pose proof (proj2 (proj2 Sh) p) as Cp. rewrite P in Cp. destruct (c_ptr s p) eqn:CP; [|contradiction].
    destruct Cp as [_ Cp]. rewrite map_length in Cp. destruct (size_of (v_nq V) (v_ntf V) p) as [|n]; [lia|].
    rewrite (dump_given _ _ _ _ _ _ n Sh P Cp T). destruct (v_arr V t); [|congruence]. reflexivity.
Qed.
Lemma dump_ok H s V (vals : part -> list R) : shows H s V ->
  (forall k, In k [Pq; Pdq; Pddq] -> v_arr V k <> None -> 0 < v_nq V) ->
  (forall k, compared k -> v_arr V k = None \/ v_arr V k = Some (map Some (vals k))) ->
  (v_arr V Peff <> None -> v_arr V Pddq <> None) ->
  state_dump H s = Ok (shown_lines (fun k => match v_arr V k with Some _ => true | None => false end) vals dump_parts).
Proof.
  intros Sh N K F. pose proof Sh as (A & B & _).
  rewrite <- (dump_lines_ok H s V vals Sh dump_parts).
  - unfold state_dump, dump_parts. cbn [map fst snd size_of]. rewrite A. reflexivity.
  - assert (KK : forall k, compared k -> v_arr V k = None \/
      0 < size_of (v_nq V) (v_ntf V) k /\ v_arr V k <> None /\ v_arr V k = Some (map Some (vals k))).
    { intros k Ck. destruct (K k Ck) as [E|E]; [now left|right]. split; [|split; [congruence|exact E]].
      destruct k; cbn [size_of]; try lia; try (eapply N; [|rewrite E; discriminate]; cbn; tauto); exfalso; apply Ck; cbn; tauto. }
    assert (CC : forall k, In k eq_parts -> compared k) by (intro; apply eq_parts_ok).
    intros t p I. cbn in I. repeat destruct I as [I|I]; try contradiction; injection I as <- <-;
      try (apply KK, CC; cbn; tauto).
    destruct (v_arr V Peff) as [x|] eqn:E; [right|now left].
    destruct (KK Pddq) as [G|(G1 & _ & G2)]; [apply CC; cbn; tauto| |].
    { exfalso. apply F; congruence. }
    split; [exact G1|]. split; [congruence|exact G2].
Qed.
Lemma c86_dump H s V vals : shows H s V -> printable V vals -> state_dump H s = Ok (lines vals).
Proof.
  intros Sh (N & K & F). unfold lines.
  rewrite (dump_ok H s V (fun k => match vals k with Some v => v | None => [] end) Sh N).
  - f_equal. unfold shown_lines, dump_parts. cbn [flat_map fst snd]. rewrite F.
    assert (CC : forall k, In k eq_parts -> compared k) by (intro; apply eq_parts_ok).
    rewrite !K by (apply CC; cbn; tauto). cbn.
    repeat match goal with |- context [vals ?k] => destruct (vals k) end; reflexivity.
  - intros k C. rewrite (K k C). destruct (vals k); [now right|now left].
  - congruence.
Qed.
Lemma c86_dump_eff H s V vals ddq : shows H s V -> 0 < v_nq V ->
  (forall k, compared k -> v_arr V k = option_map (map Some) (vals k)) -> v_arr V Peff <> None ->
  vals Pddq = Some ddq -> exists l, state_dump H s = Ok l /\ forall v, In (Peff, v) l <-> v = ddq.
Proof.
  intros Sh N K F D.
  assert (CC : forall k, In k eq_parts -> compared k) by (intro; apply eq_parts_ok).
  eexists. split.
  - apply (dump_ok H s V (fun k => match vals k with Some v => v | None => [] end) Sh (fun _ _ _ => N)).
    + intros k C. rewrite (K k C). destruct (vals k); [now right|now left].
    + intros _. rewrite (K Pddq) by (apply CC; cbn; tauto). rewrite D. discriminate.
  - intro v. unfold shown_lines. rewrite in_flat_map. split.
    + intros ([t p] & I & J). cbn in I. repeat destruct I as [I|I]; try contradiction; injection I as <- <-; cbn [fst snd] in J;
      match type of J with context [v_arr V ?k] => destruct (v_arr V k) end; cbn in J; try contradiction;
      destruct J as [J|[]]; try discriminate. injection J as <-. now rewrite D.
    + intros ->. exists (Peff, Pddq). split; [cbn; tauto|]. cbn [fst snd]. destruct (v_arr V Peff); [|congruence].
      rewrite D. now left.
Qed.
Lemma dump_undef H s l1 t p l2 n : dump_line H s t p n = Undef ->
  (exists r, dump_lines H s l1 = Ok r) \/ dump_lines H s l1 = Undef ->
  dump_lines H s (l1 ++ (t, p, n) :: l2) = Undef.
Proof.
  intro E. induction l1 as [|[[t1 p1] n1] l1 IH]; cbn [app dump_lines].
  - intros _. now rewrite E.
  - destruct (dump_line H s t1 p1 n1) as [a| |]; cbn [rbind]; intro O.
    + rewrite IH; [reflexivity|]. destruct (dump_lines H s l1); cbn in O; destruct O as [[? O]|O]; try discriminate; eauto.
    + reflexivity.
    + destruct O as [[? O]|O]; discriminate.
Qed.
(** no line hangs *)
Lemma rd_vec_nohang H : forall n a, rd_vec H a n <> Hang.
Proof.
  induction n as [|n IH]; intro a; cbn; [discriminate|].
  assert (R : rd H a <> Hang).
  { unfold rd, rd_cell. destruct (nth_error H (fst a)); [|discriminate]. destruct (nth_error l (snd a)) as [[x|]|]; discriminate. }
  destruct (rd H a); try discriminate; [|congruence]. cbn.
  specialize (IH (next_addr a)). destruct (rd_vec H (next_addr a) n); try discriminate. congruence.
Qed.
Lemma dump_line_nohang H s t p n : dump_line H s t p n <> Hang.
Proof.
  unfold dump_line. destruct (c_ptr s t); [|discriminate]. unfold dump_vec.
  destruct n as [|n]; [discriminate|]. destruct (c_ptr s p); [|discriminate].
  pose proof (rd_vec_nohang H (S n) a0). destruct (rd_vec H a0 (S n)); try discriminate. congruence.
Qed.
Lemma dump_lines_nohang H s l : dump_lines H s l <> Hang.
Proof.
  induction l as [|[[t p] n] l IH]; cbn; [discriminate|]. pose proof (dump_line_nohang H s t p n).
  destruct (dump_line H s t p n); try discriminate; [|congruence]. cbn.
  destruct (dump_lines H s l); try discriminate. congruence.
Qed.
Lemma dump_lines_two H s l : (exists r, dump_lines H s l = Ok r) \/ dump_lines H s l = Undef.
Proof. pose proof (dump_lines_nohang H s l). destruct (dump_lines H s l); eauto. congruence. Qed.
Lemma c86_dump_eff_only H s V : shows H s V -> v_arr V Peff <> None -> v_arr V Pddq = None -> state_dump H s = Undef.
Proof.
  intros (A & B & C) F D. pose proof (C Peff) as CE. pose proof (C Pddq) as CD. rewrite D in CD.
  unfold state_dump. apply (dump_undef H s [(Pq, Pq, c_nq s); (Pdq, Pdq, c_nq s); (Pddq, Pddq, c_nq s)]).
  - unfold dump_line. destruct (c_ptr s Peff); [|destruct (v_arr V Peff); congruence || contradiction].
    destruct (c_ptr s Pddq); [contradiction|]. unfold dump_vec. now destruct (c_nq s).
  - apply dump_lines_two.
Qed.
Lemma c86_dump_empty H s V : shows H s V -> v_nq V = 0 -> v_arr V Pq <> None -> state_dump H s = Undef.
Proof.
  intros (A & B & C) N Q. pose proof (C Pq) as CQ. unfold state_dump, dump_lines, dump_line at 1.
  destruct (c_ptr s Pq); [|destruct (v_arr V Pq); congruence || contradiction].
  rewrite A, N. reflexivity.
Qed.

(** ** storing *)
Lemma put_ok H a cs v : cells_at H a cs -> length v = length cs ->
  exists H', put_cells H a v = Ok H' /\ length H' = length H /\
    (forall i, i <> fst a -> nth_error H' i = nth_error H i) /\ cells_at H' a (map Some v) /\
    (exists x y, nth_error H (fst a) = Some (x ++ cs ++ y) /\ nth_error H' (fst a) = Some (x ++ map Some v ++ y)).
Proof.
  intros C L. pose proof (cells_in _ _ _ C) as I. destruct C as (x & y & E & LX). unfold put_cells.
  rewrite E, <- LX, L.
  replace (length x + length cs <=? length (x ++ cs ++ y)) with true
    by (symmetry; apply Nat.leb_le; rewrite !app_length; lia).
  eexists. split; [reflexivity|].
  assert (F : firstn (length x) (x ++ cs ++ y) = x) by (rewrite firstn_app, firstn_all, Nat.sub_diag; cbn; apply app_nil_r).
  assert (G : skipn (length x + length cs) (x ++ cs ++ y) = y).
  { rewrite app_assoc, <- app_length. rewrite skipn_app, skipn_all, Nat.sub_diag. reflexivity. }
  rewrite F, G. set (arr := x ++ map Some v ++ y).
  assert (LF : length (firstn (fst a) H) = fst a) by (apply firstn_length_le; lia).
  assert (AT : nth_error (firstn (fst a) H ++ [arr] ++ skipn (S (fst a)) H) (fst a) = Some arr).
  { rewrite nth_error_app2 by lia. rewrite LF, Nat.sub_diag. reflexivity. }
  repeat split.
  - rewrite !app_length, LF, skipn_length. cbn. lia.
  - intros i NI. destruct (lt_dec i (fst a)) as [l|g].
    + rewrite nth_error_app1 by lia. rewrite <- (firstn_skipn (fst a) H) at 2. rewrite nth_error_app1 by lia. reflexivity.
    + rewrite nth_error_app2 by lia. rewrite LF. destruct (i - fst a) as [|j] eqn:J; [lia|]. cbn.
      rewrite <- (firstn_skipn (S (fst a)) H) at 2.
      rewrite nth_error_app2 by (rewrite firstn_length_le; lia). rewrite firstn_length_le by lia. f_equal. lia.
  - exists x, y. split; [exact AT|exact LX].
  - exists x, y. split; [first [exact E|reflexivity]|exact AT].
Qed.
Lemma c86_set_qutr H s V E cs : shows H s V -> separate s -> v_arr V PX = Some cs -> length E = 7 ->
  exists H', set_qutr H s E = Ok H' /\
    shows H' s (mkV (v_nq V) (v_ntf V) (fun k => match k with PX => Some (map Some E) | _ => v_arr V k end)).
Proof.
  intros Sh SP X L. pose proof Sh as (A & B & C). pose proof (C PX) as CX. unfold set_qutr.
  rewrite X in CX. destruct (c_ptr s PX) as [a|] eqn:P; [|contradiction]. destruct CX as [C1 C2]. cbn [size_of] in C2.
  destruct (put_ok H a cs E C1 ltac:(lia)) as (H' & R & _ & O & N & _).
  exists H'. split; [exact R|]. split; [exact A|]. split; [exact B|]. intro k. cbn [v_nq v_ntf v_arr].
  specialize (C k). destruct (c_ptr s k) as [b|] eqn:K.
  - assert (D : k = PX \/ k <> PX) by (destruct k; auto; right; discriminate). destruct D as [->|D].
    + rewrite P in K. injection K as <-. split; [exact N|]. now rewrite map_length.
    + assert (M : match k with PX => Some (map Some E) | _ => v_arr V k end = v_arr V k) by (destruct k; congruence).
      rewrite M. destruct (v_arr V k) as [ds|]; [|contradiction]. destruct C as [K1 K2]. split; [|exact K2].
      apply (cells_same H); [|exact K1]. apply O. intro F. apply D. now apply (SP k PX b a).
  - destruct k; try exact C. congruence.
Qed.
