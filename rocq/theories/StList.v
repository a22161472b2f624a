(** Proofs about point lists: links, contents, histories, paths. *)
From Coq Require Import List Reals Arith Bool Lra Lia Classical Permutation.
Import ListNotations.
From Verif Require Import TrModel StModel StSpec StProofs.
Open Scope nat_scope.

(** ** links *)
Lemma upd_nth (g : node -> node) i : forall ns k j,
  nth_error (map (fun jn : nat * node => if fst jn =? i then g (snd jn) else snd jn) (combine (seq k (length ns)) ns)) j =
  option_map (fun p => if k + j =? i then g p else p) (nth_error ns j).
Proof.
  induction ns as [|n ns IH]; intros k j; [now destruct j|].
  destruct j as [|j]; cbn [length seq combine map nth_error option_map fst snd].
  - now rewrite Nat.add_0_r.
  - rewrite IH. now rewrite Nat.add_succ_r.
Qed.
Lemma set_next_nth ns i v j : nth_error (set_next ns i v) j =
  option_map (fun p => if j =? i then mkN (n_st p) (n_prev p) v else p) (nth_error ns j).
Proof. exact (upd_nth (fun p => mkN (n_st p) (n_prev p) v) i ns 0 j). Qed.
Lemma set_prev_nth ns i v j : nth_error (set_prev ns i v) j =
  option_map (fun p => if j =? i then mkN (n_st p) v (n_next p) else p) (nth_error ns j).
Proof. exact (upd_nth (fun p => mkN (n_st p) v (n_next p)) i ns 0 j). Qed.
Lemma set_next_len ns i v : length (set_next ns i v) = length ns.
Proof. unfold set_next. rewrite map_length, combine_length, seq_length. lia. Qed.
Lemma set_prev_len ns i v : length (set_prev ns i v) = length ns.
Proof. unfold set_prev. rewrite map_length, combine_length, seq_length. lia. Qed.

Definition linked (ns : list node) (l : list nat) : Prop :=
  forall pre x suf, l = pre ++ x :: suf -> exists p, nth_error ns x = Some p /\
    n_prev p = back pre /\ n_next p = front suf.
Definition ids (ns : list node) (l : list nat) : Prop :=
  NoDup l /\ (forall i, In i l -> i < length ns) /\ (forall i, i < length ns -> In i l).

Lemma links_next ns l : linked ns l -> forall suf pre, l = pre ++ suf -> links n_next ns (front suf) suf.
Proof.
  intro K. induction suf as [|x suf IH]; intros pre E; [constructor|].
  destruct (K _ _ _ E) as (p & P & _ & N). cbn. apply (links_step _ _ x p); [exact P|]. rewrite N.
  apply (IH (pre ++ [x])). now rewrite <- app_assoc.
Qed.
Lemma links_prev ns l : linked ns l -> forall pre suf, l = pre ++ suf -> links n_prev ns (back pre) (rev pre).
Proof.
  intro K. induction pre as [|x pre IH] using rev_ind; intros suf E; [constructor|].
  unfold back. rewrite rev_app_distr. cbn. rewrite <- app_assoc in E.
  destruct (K _ _ _ E) as (p & P & N & _). apply (links_step _ _ x p); [exact P|]. rewrite N. now apply (IH (x :: suf)).
Qed.

Lemma split_last {A} (pre : list A) x suf l y : pre ++ x :: suf = l ++ [y] ->
  (suf = [] /\ pre = l /\ x = y) \/ (exists suf', suf = suf' ++ [y] /\ l = pre ++ x :: suf').
Proof.
  intro E. destruct suf as [|z suf _] using rev_ind.
  - left. apply app_inj_tail in E. intuition.
  - right. rewrite app_comm_cons, app_assoc in E. apply app_inj_tail in E. destruct E as [<- <-]. eauto.
Qed.
Lemma back_app l x : back (l ++ [x]) = Some x.
Proof. unfold back. now rewrite rev_app_distr. Qed.
Lemma back_inv l x : back l = Some x -> exists l', l = l' ++ [x].
Proof.
  destruct l as [|y l _] using rev_ind; [discriminate|]. rewrite back_app. intro E. injection E as ->. eauto.
Qed.
Lemma back_nil l : back l = None -> l = [].
Proof. destruct l as [|y l _] using rev_ind; [reflexivity|]. rewrite back_app. discriminate. Qed.
Lemma front_app l x (a : nat) : front l = Some x -> front (l ++ [a]) = Some x.
Proof. now destruct l. Qed.
Lemma back_cons l x (a : nat) : back l = Some x -> back (a :: l) = Some x.
Proof. intro E. apply back_inv in E. destruct E as [l' ->]. change (a :: l' ++ [x]) with ((a :: l') ++ [x]). apply back_app. Qed.

Lemma linked_add L s : linked (pl_nodes L) (pl_list L) -> ids (pl_nodes L) (pl_list L) ->
  linked (pl_nodes (list_add L s)) (pl_list (list_add L s)) /\ ids (pl_nodes (list_add L s)) (pl_list (list_add L s)).
Proof.
  destruct L as [ns l]. unfold list_add. cbn [pl_nodes pl_list]. intros K (ND & I1 & I2).
  set (ns' := match back l with Some b => set_next ns b (Some (length ns)) | None => ns end).
  assert (LN : length ns' = length ns) by (unfold ns'; destruct (back l); [apply set_next_len|reflexivity]).
  split.
  - intros pre x suf E. symmetry in E. apply split_last in E. destruct E as [(-> & -> & ->)|(suf' & -> & E)].
    + exists (mkN s (back l) None). split; [|split; reflexivity].
      rewrite nth_error_app2 by lia. now rewrite LN, Nat.sub_diag.
    + destruct (K _ _ _ E) as (p & P & Q & R).
      assert (X : x < length ns) by (apply I1; rewrite E; apply in_or_app; right; now left).
      rewrite nth_error_app1 by lia. unfold ns'. destruct (back l) as [b|] eqn:B.
      * rewrite set_next_nth, P. cbn [option_map]. eexists. split; [reflexivity|].
        apply back_inv in B. destruct B as [l' B].
        destruct (Nat.eqb_spec x b) as [->|D].
        -- cbn [n_prev n_next]. split; [exact Q|].
           destruct suf' as [|y suf']; [reflexivity|]. exfalso. subst l.
           assert (F : In b (y :: suf')).
           { destruct (exists_last (l := y :: suf') ltac:(discriminate)) as (r & z & Z). rewrite Z in *.
             rewrite app_comm_cons, app_assoc in E. apply app_inj_tail in E. destruct E as [_ ->]. apply in_or_app. right. now left. }
           rewrite E in ND. apply NoDup_remove_2 in ND. apply ND. apply in_or_app. now right.
        -- split; [exact Q|]. rewrite R. destruct suf' as [|y suf']; [|reflexivity].
           exfalso. rewrite B in E. apply app_inj_tail in E. destruct E as [_ E]. congruence.
      * destruct l as [|y l _] using rev_ind; [destruct pre; discriminate|]. rewrite back_app in B. discriminate.
  - split; [|split].
    + apply (Permutation_NoDup (Permutation_cons_append l (length ns))). constructor; [|exact ND].
      intro J. apply I1 in J. lia.
    + intros i J. rewrite app_length, LN. cbn. apply in_app_or in J. destruct J as [J|[<-|[]]]; [apply I1 in J; lia|lia].
    + intros i J. rewrite app_length, LN in J. cbn in J. apply in_or_app.
      destruct (Nat.eq_dec i (length ns)) as [->|D]; [right; now left|left; apply I2; lia].
Qed.

Lemma linked_add_front L s : linked (pl_nodes L) (pl_list L) -> ids (pl_nodes L) (pl_list L) ->
  linked (pl_nodes (list_add_front L s)) (pl_list (list_add_front L s)) /\
  ids (pl_nodes (list_add_front L s)) (pl_list (list_add_front L s)).
Proof.
  destruct L as [ns l]. unfold list_add_front. cbn [pl_nodes pl_list]. intros K (ND & I1 & I2).
  set (ns' := match front l with Some b => set_prev ns b (Some (length ns)) | None => ns end).
  assert (LN : length ns' = length ns) by (unfold ns'; destruct (front l); [apply set_prev_len|reflexivity]).
  split.
  - intros pre x suf E. destruct pre as [|z pre].
    + cbn in E. injection E as <- <-. exists (mkN s None (front l)). split; [|split; reflexivity].
      rewrite nth_error_app2 by lia. now rewrite LN, Nat.sub_diag.
    + cbn in E. injection E as <- E. destruct (K _ _ _ E) as (p & P & Q & R).
      assert (X : x < length ns) by (apply I1; rewrite E; apply in_or_app; right; now left).
      rewrite nth_error_app1 by lia. unfold ns'. destruct l as [|b l']; [destruct pre; discriminate|]. cbn [front hd_error].
      rewrite set_prev_nth, P. cbn [option_map]. eexists. split; [reflexivity|].
      destruct pre as [|y pre].
      * cbn in E. injection E as <- <-. rewrite Nat.eqb_refl. cbn [n_prev n_next]. split; [reflexivity|exact R].
      * cbn in E. injection E as <- E. destruct (Nat.eqb_spec x b) as [->|D].
        -- exfalso. inversion ND as [|? ? N _]; subst. apply N. apply in_or_app. right. now left.
        -- split; [|exact R]. rewrite Q. destruct (back (b :: pre)) as [c|] eqn:B.
           ++ symmetry. now apply back_cons.
           ++ apply back_nil in B. discriminate.
  - split; [|split].
    + constructor; [|exact ND]. intro J. apply I1 in J. lia.
    + intros i J. rewrite app_length, LN. cbn. destruct J as [<-|J]; [lia|apply I1 in J; lia].
    + intros i J. rewrite app_length, LN in J. cbn in J.
      destruct (Nat.eq_dec i (length ns)) as [->|D]; [now left|right; apply I2; lia].
Qed.
(** adding changes no state *)
Lemma add_states L s i p : nth_error (pl_nodes L) i = Some p ->
  exists p', nth_error (pl_nodes (list_add L s)) i = Some p' /\ n_st p' = n_st p.
Proof.
  intro P. assert (X : i < length (pl_nodes L)) by (apply nth_error_Some; congruence).
  unfold list_add. cbn [pl_nodes]. destruct (back (pl_list L)) as [b|].
  - rewrite nth_error_app1 by (rewrite set_next_len; lia). rewrite set_next_nth, P. cbn.
    eexists. split; [reflexivity|]. now destruct (i =? b).
  - rewrite nth_error_app1 by lia. eauto.
Qed.
Lemma add_new L s : exists p, nth_error (pl_nodes (list_add L s)) (length (pl_nodes L)) = Some p /\ n_st p = s.
Proof.
  exists (mkN s (back (pl_list L)) None). split; [|reflexivity]. unfold list_add. cbn [pl_nodes].
  rewrite nth_error_app2 by (destruct (back (pl_list L)); [rewrite set_next_len|]; lia).
  destruct (back (pl_list L)); [rewrite set_next_len|]; now rewrite Nat.sub_diag.
Qed.
Lemma add_front_states L s i p : nth_error (pl_nodes L) i = Some p ->
  exists p', nth_error (pl_nodes (list_add_front L s)) i = Some p' /\ n_st p' = n_st p.
Proof.
  intro P. assert (X : i < length (pl_nodes L)) by (apply nth_error_Some; congruence).
  unfold list_add_front. cbn [pl_nodes]. destruct (front (pl_list L)) as [b|].
  - rewrite nth_error_app1 by (rewrite set_prev_len; lia). rewrite set_prev_nth, P. cbn.
    eexists. split; [reflexivity|]. now destruct (i =? b).
  - rewrite nth_error_app1 by lia. eauto.
Qed.
Lemma add_front_new L s : exists p, nth_error (pl_nodes (list_add_front L s)) (length (pl_nodes L)) = Some p /\ n_st p = s.
Proof.
  exists (mkN s None (front (pl_list L))). split; [|reflexivity]. unfold list_add_front. cbn [pl_nodes].
  rewrite nth_error_app2 by (destruct (front (pl_list L)); [rewrite set_prev_len|]; lia).
  destruct (front (pl_list L)); [rewrite set_prev_len|]; now rewrite Nat.sub_diag.
Qed.

(** ** contents *)
Lemma contents_mono H H' L L' l :
  (forall i p, nth_error (pl_nodes L) i = Some p -> exists p', nth_error (pl_nodes L') i = Some p' /\ n_st p' = n_st p) ->
  grew H H' -> forall is, Forall2 (fun i V => exists p, nth_error (pl_nodes L) i = Some p /\ shows H (n_st p) V) is l ->
  Forall2 (fun i V => exists p, nth_error (pl_nodes L') i = Some p /\ shows H' (n_st p) V) is l.
Proof.
  intros K G is F. induction F as [|i V is l (p & P & S) _ IH]; constructor; [|exact IH].
  destruct (K _ _ P) as (p' & P' & E). exists p'. split; [exact P'|]. rewrite E. now apply (shows_grew H).
Qed.
Lemma contents_front H L l i : contents H L l -> front (pl_list L) = Some i ->
  exists V l' p, l = V :: l' /\ nth_error (pl_nodes L) i = Some p /\ shows H (n_st p) V.
Proof.
  unfold contents. intros C F. destruct (pl_list L) as [|j r]; [discriminate|]. cbn in F. injection F as ->.
  inversion C as [|? V ? l' (p & P & S) _]; subst. exists V, l', p. auto.
Qed.
Lemma contents_back H L l i : contents H L l -> back (pl_list L) = Some i ->
  exists V l' p, l = l' ++ [V] /\ nth_error (pl_nodes L) i = Some p /\ shows H (n_st p) V.
Proof.
  unfold contents. intros C F. apply back_inv in F. destruct F as [r F]. rewrite F in C.
  apply Forall2_app_inv_l in C. destruct C as (l1 & l2 & _ & C2 & ->).
  inversion C2 as [|? V ? l3 (p & P & S) C3]; subst. inversion C3; subst. exists V, l1, p. auto.
Qed.
Lemma contents_empty H L l : contents H L l -> front (pl_list L) = None -> l = [] /\ pl_list L = [].
Proof.
  unfold contents. intros C F. destruct (pl_list L) as [|j r]; [|discriminate]. inversion C. auto.
Qed.
Lemma back_none L : back (pl_list L) = None <-> front (pl_list L) = None.
Proof.
  destruct (pl_list L) as [|x l]; [tauto|]. split; [|discriminate]. intro B.
  apply back_nil in B. discriminate.
Qed.

(** one call *)
Lemma add_call H L l s V : contents H L l -> Forall stored l -> shows H s V -> stored V ->
  (exists W l', l = l' ++ [W] /\ near W V /\ pts_add H L s = Ok (H, L)) \/
  (l = [] \/ exists W l', l = l' ++ [W] /\ ~ near W V) /\
  (exists H' s', state_clone H s = Ok (H', s') /\ pts_add H L s = Ok (H', list_add L s')).
Proof.
  intros C SL S SV. unfold pts_add. destruct (c86_clone H s V S) as (H' & s' & E & _).
  destruct (back (pl_list L)) as [b|] eqn:B.
  - destruct (contents_back _ _ _ _ C B) as (W & l' & p & -> & P & SW). cbn [eq_at]. rewrite P.
    assert (ST : stored W) by (apply Forall_app in SL; destruct SL as [_ SL]; now inversion SL).
    destruct (c86_eq H _ _ _ _ SW S ST SV) as (r & R & I). rewrite R. cbn [rbind]. destruct r.
    + left. exists W, l'. split; [reflexivity|]. split; [now apply I|reflexivity].
    + right. split; [right; exists W, l'; split; [reflexivity|]; intro N; apply I in N; discriminate|].
      exists H', s'. rewrite E. auto.
  - apply back_none in B. destruct (contents_empty _ _ _ C B) as [-> _]. right. split; [now left|].
    exists H', s'. cbn [eq_at rbind]. rewrite E. auto.
Qed.
Lemma add_front_call H L l s V : contents H L l -> Forall stored l -> shows H s V -> stored V ->
  (exists W l', l = W :: l' /\ near W V /\ pts_add_front H L s = Ok (H, L)) \/
  (l = [] \/ exists W l', l = W :: l' /\ ~ near W V) /\
  (exists H' s', state_clone H s = Ok (H', s') /\ pts_add_front H L s = Ok (H', list_add_front L s')).
Proof.
  intros C SL S SV. unfold pts_add_front. destruct (c86_clone H s V S) as (H' & s' & E & _).
  destruct (front (pl_list L)) as [b|] eqn:B.
  - destruct (contents_front _ _ _ _ C B) as (W & l' & p & -> & P & SW). cbn [eq_at]. rewrite P.
    assert (ST : stored W) by now inversion SL.
    destruct (c86_eq H _ _ _ _ SW S ST SV) as (r & R & I). rewrite R. cbn [rbind]. destruct r.
    + left. exists W, l'. split; [reflexivity|]. split; [now apply I|reflexivity].
    + right. split; [right; exists W, l'; split; [reflexivity|]; intro N; apply I in N; discriminate|].
      exists H', s'. rewrite E. auto.
  - destruct (contents_empty _ _ _ C B) as [-> _]. right. split; [now left|].
    exists H', s'. cbn [eq_at rbind]. rewrite E. auto.
Qed.

Definition good (e : list (side * view)) (H : heap) (L : plist) : Prop :=
  exists l, added e l /\ contents H L l /\ Forall stored l /\
    linked (pl_nodes L) (pl_list L) /\ ids (pl_nodes L) (pl_list L).
Lemma good_add e H L s V H' L' : good e H L -> shows H s V -> stored V -> pts_add H L s = Ok (H', L') ->
  good (e ++ [(Back, V)]) H' L'.
Proof.
  intros (l & A & C & SL & K & I) S SV E.
  destruct (add_call H L l s V C SL S SV) as [(W & l' & -> & N & E')|(D & H1 & s' & CL & E')]; rewrite E' in E; injection E as <- <-.
  - exists (l' ++ [W]). split; [now apply dropped_back|]. auto.
  - destruct (c86_clone H s V S) as (H2 & s2 & CL' & G & _ & _ & S2 & _). rewrite CL in CL'. injection CL' as <- <-.
    destruct (linked_add L s' K I) as [K' I'].
    exists (l ++ [V]). split; [|split; [|split]].
    + destruct D as [->|(W & l' & -> & N)]; [now apply added_first|]. rewrite <- app_assoc. now apply added_back.
    + unfold contents, list_add at 2. cbn [pl_list]. apply Forall2_app.
      * apply (contents_mono H H1 L (list_add L s')); [apply add_states|exact G|exact C].
      * constructor; [|constructor]. destruct (add_new L s') as (p & P & Q). exists p. split; [exact P|]. now rewrite Q.
    + apply Forall_app. auto.
    + auto.
Qed.
Lemma good_add_front e H L s V H' L' : good e H L -> shows H s V -> stored V -> pts_add_front H L s = Ok (H', L') ->
  good (e ++ [(Front, V)]) H' L'.
Proof.
  intros (l & A & C & SL & K & I) S SV E.
  destruct (add_front_call H L l s V C SL S SV) as [(W & l' & -> & N & E')|(D & H1 & s' & CL & E')]; rewrite E' in E; injection E as <- <-.
  - exists (W :: l'). split; [now apply dropped_front|]. auto.
  - destruct (c86_clone H s V S) as (H2 & s2 & CL' & G & _ & _ & S2 & _). rewrite CL in CL'. injection CL' as <- <-.
    destruct (linked_add_front L s' K I) as [K' I'].
    exists (V :: l). split; [|split; [|split]].
    + destruct D as [->|(W & l' & -> & N)]; [now apply added_first|]. now apply added_front.
    + unfold contents, list_add_front at 2. cbn [pl_list]. constructor.
      * destruct (add_front_new L s') as (p & P & Q). exists p. split; [exact P|]. now rewrite Q.
      * apply (contents_mono H H1 L (list_add_front L s')); [apply add_front_states|exact G|exact C].
    + now constructor.
    + auto.
Qed.
Lemma history_good e H L : history e H L -> good e H L.
Proof.
  induction 1 as [H|e H H' L _ (l & A & C & SL & K & I) LE O|e H L s V H' L' _ IH S SV E|e H L s V H' L' _ IH S SV E].
  - exists []. split; [constructor|]. split; [constructor|]. split; [constructor|]. split.
    + intros [|? pre] x suf E; discriminate.
    + split; [constructor|]. split; [intros i []|intros i J; cbn in J; lia].
  - exists l. split; [exact A|]. split; [|auto]. unfold contents in *. clear - C O.
    induction C as [|i V is l (p & P & S) _ IH]; constructor; [|exact IH]. exists p. split; [exact P|].
    apply (shows_same H); [|exact S]. intros k a X. apply O. exists p, k, a. split; [now apply nth_error_In in P|]. auto.
  - now apply (good_add e H L s V).
  - now apply (good_add_front e H L s V).
Qed.
Lemma f2_len {A B} (P : A -> B -> Prop) a b : Forall2 P a b -> length a = length b.
Proof. induction 1; cbn; congruence. Qed.
Lemma c86_history e H L : history e H L ->
  exists l, added e l /\ contents H L l /\ pts_size L = length l /\
    links n_next (pl_nodes L) (front (pl_list L)) (pl_list L) /\
    links n_prev (pl_nodes L) (back (pl_list L)) (rev (pl_list L)) /\
    forall s V, shows H s V -> stored V ->
      (exists H' L', pts_add H L s = Ok (H', L') /\ grew H H') /\
      (exists H' L', pts_add_front H L s = Ok (H', L') /\ grew H H').
Proof.
  intro Hi. destruct (history_good _ _ _ Hi) as (l & A & C & SL & K & I). exists l.
  split; [exact A|]. split; [exact C|]. split; [apply (f2_len _ _ _ C)|].
  split; [apply (links_next _ _ K _ []); reflexivity|].
  split; [apply (links_prev _ _ K _ []); now rewrite app_nil_r|].
  intros s V S SV. split.
  - destruct (add_call H L l s V C SL S SV) as [(W & l' & _ & _ & E)|(_ & H1 & s' & CL & E)].
    + exists H, L. split; [exact E|apply grew_refl].
    + destruct (c86_clone H s V S) as (H2 & s2 & CL' & G & _). rewrite CL in CL'. injection CL' as <- <-. eauto.
  - destruct (add_front_call H L l s V C SL S SV) as [(W & l' & _ & _ & E)|(_ & H1 & s' & CL & E)].
    + exists H, L. split; [exact E|apply grew_refl].
    + destruct (c86_clone H s V S) as (H2 & s2 & CL' & G & _). rewrite CL in CL'. injection CL' as <- <-. eauto.
Qed.
(** ** what is kept *)
Lemma c86_ends H L V r : contents H L (V :: r) ->
  (exists s, start_state L = Ok s /\ shows H s V) /\ (exists s, final_state L = Ok s /\ shows H s (last (V :: r) V)).
Proof.
  intro C. split.
  - destruct (front (pl_list L)) as [i|] eqn:F.
    + destruct (contents_front _ _ _ _ C F) as (W & l' & p & E & P & S). injection E as <- <-.
      exists (n_st p). unfold start_state, point. rewrite F, P. auto.
    + destruct (contents_empty _ _ _ C F). discriminate.
  - destruct (back (pl_list L)) as [i|] eqn:F.
    + destruct (contents_back _ _ _ _ C F) as (W & l' & p & E & P & S). rewrite E, last_last.
      exists (n_st p). unfold final_state, point. rewrite F, P. auto.
    + apply back_none in F. destruct (contents_empty _ _ _ C F). discriminate.
Qed.
Lemma c86_apart e l : added e l -> forall pre W V suf, l = pre ++ W :: V :: suf -> ~ near W V.
Proof.
  induction 1 as [|e d V A IH|e l W V A IH N|e W l V A IH N|e l W V A IH N|e W l V A IH N]; intros pre X Y suf E.
  - destruct pre; discriminate.
  - destruct pre as [|? [|]]; discriminate.
  - destruct suf as [|z suf _] using rev_ind.
    + change [W; V] with ([W] ++ [V]) in E. change [X; Y] with ([X] ++ [Y]) in E. rewrite !app_assoc in E.
      apply app_inj_tail in E. destruct E as [E <-]. apply app_inj_tail in E. destruct E as [_ <-]. exact N.
    + change [W; V] with ([W] ++ [V]) in E. rewrite app_assoc, !app_comm_cons, app_assoc in E.
      apply app_inj_tail in E. destruct E as [E _]. now apply (IH pre X Y suf).
  - destruct pre as [|z pre]; cbn in E.
    + injection E as <- <- <-. intro F. now apply N, near_sym.
    + injection E as <- E. now apply (IH pre X Y suf).
  - now apply (IH pre X Y suf).
  - now apply (IH pre X Y suf).
Qed.
Lemma c86_covered e l : added e l -> forall d V, In (d, V) e -> exists W, In W l /\ (W = V \/ near W V).
Proof.
  induction 1 as [|e d V A IH|e l W V A IH N|e W l V A IH N|e l W V A IH N|e W l V A IH N]; intros d' X I.
  - destruct I.
  - apply in_app_or in I. destruct I as [I|[I|[]]].
    + destruct (IH _ _ I) as (? & [] & _).
    + injection I as <- <-. exists V. split; [now left|now left].
  - apply in_app_or in I. destruct I as [I|[I|[]]].
    + destruct (IH _ _ I) as (Y & J & D). exists Y. split; [|exact D].
      apply in_app_or in J. apply in_or_app. destruct J as [J|[J|[]]]; [now left|right; now left].
    + injection I as <- <-. exists V. split; [apply in_or_app; right; right; now left|now left].
  - apply in_app_or in I. destruct I as [I|[I|[]]].
    + destruct (IH _ _ I) as (Y & J & D). exists Y. split; [now right|exact D].
    + injection I as <- <-. exists V. split; [now left|now left].
  - apply in_app_or in I. destruct I as [I|[I|[]]]; [now apply (IH d')|].
    injection I as <- <-. exists W. split; [apply in_or_app; right; now left|now right].
  - apply in_app_or in I. destruct I as [I|[I|[]]]; [now apply (IH d')|].
    injection I as <- <-. exists W. split; [now left|now right].
Qed.
Lemma sub_snoc V a b : subsequence a b -> subsequence (a ++ [V]) (b ++ [V]).
Proof. induction 1; cbn; repeat constructor; assumption. Qed.
Lemma sub_skip_last V a b : subsequence a b -> subsequence a (b ++ [V]).
Proof. induction 1; cbn; repeat constructor; assumption. Qed.
Lemma c86_order e l : added e l -> (forall d V, In (d, V) e -> d = Back) ->
  subsequence l (map snd e) /\ hd_error l = hd_error (map snd e).
Proof.
  induction 1 as [|e d V A IH|e l W V A IH N|e W l V A IH N|e l W V A IH N|e W l V A IH N]; intro B.
  - split; [constructor|reflexivity].
  - destruct IH as [IH1 IH2]; [intros d' X I; apply (B d' X), in_or_app; now left|].
    destruct e as [|[d0 V0] e]; [|discriminate]. cbn. split; [repeat constructor|reflexivity].
  - destruct IH as [IH1 IH2]; [intros d' X I; apply (B d' X), in_or_app; now left|].
    rewrite map_app. cbn [map snd]. change [W; V] with ([W] ++ [V]). rewrite app_assoc. split; [now apply sub_snoc|].
    destruct e as [|[d0 V0] e]; [destruct l; discriminate|]. destruct l; exact IH2.
  - exfalso. assert (Front = Back) by (apply (B Front V), in_or_app; right; now left). discriminate.
  - destruct IH as [IH1 IH2]; [intros d' X I; apply (B d' X), in_or_app; now left|].
    rewrite map_app. cbn [map snd]. split; [now apply sub_skip_last|].
    destruct e as [|[d0 V0] e]; [destruct l; discriminate|]. exact IH2.
  - exfalso. assert (Front = Back) by (apply (B Front V), in_or_app; right; now left). discriminate.
Qed.
Lemma c86_one_answer e0' l0' : added e0' l0' -> forall l', added e0' l' -> l0' = l'.
Proof.
  assert (IV : forall e d V l, added (e ++ [(d, V)]) l ->
    (added e [] /\ l = [V]) \/
    (d = Back /\ exists r W, added e (r ++ [W]) /\ (~ near W V /\ l = r ++ [W; V] \/ near W V /\ l = r ++ [W])) \/
    (d = Front /\ exists r W, added e (W :: r) /\ (~ near W V /\ l = V :: W :: r \/ near W V /\ l = W :: r))).
  { intros e0 d0 V0 l0 A. remember (e0 ++ [(d0, V0)]) as x eqn:X.
    destruct A as [|e d V A|e l W V A N|e W l V A N|e l W V A N|e W l V A N];
      [destruct e0; discriminate|..]; apply app_inj_tail in X; destruct X as [<- X]; injection X as <- <-.
    - left; auto.
    - right; left. split; [reflexivity|]. exists l, W. auto.
    - right; right. split; [reflexivity|]. exists l, W. auto.
    - right; left. split; [reflexivity|]. exists l, W. auto.
    - right; right. split; [reflexivity|]. exists l, W. auto. }
  induction 1 as [|e d V A IH|e l W V A IH N|e W l V A IH N|e l W V A IH N|e W l V A IH N]; intros l' A'.
  - inversion A' as [X|? ? ? ? X|? ? ? ? ? ? X|? ? ? ? ? ? X|? ? ? ? ? ? X|? ? ? ? ? ? X]; [reflexivity| | | | |]; destruct e; discriminate.
  - apply IV in A'. destruct A' as [[_ ->]|[[_ (r & W & A' & _)]|[_ (r & W & A' & _)]]]; [reflexivity| |];
      apply IH in A'; destruct r; discriminate.
  - apply IV in A'. destruct A' as [[A' _]|[[_ (r & Z & A' & D)]|[D _]]]; [apply IH in A'; destruct l; discriminate| |discriminate].
    apply IH in A'. apply app_inj_tail in A'. destruct A' as [<- <-]. destruct D as [[_ ->]|[D _]]; [reflexivity|contradiction].
  - apply IV in A'. destruct A' as [[A' _]|[[D _]|[_ (r & Z & A' & D)]]]; [apply IH in A'; discriminate|discriminate|].
    apply IH in A'. injection A' as <- <-. destruct D as [[_ ->]|[D _]]; [reflexivity|contradiction].
  - apply IV in A'. destruct A' as [[A' _]|[[_ (r & Z & A' & D)]|[D _]]]; [apply IH in A'; destruct l; discriminate| |discriminate].
    apply IH in A'. apply app_inj_tail in A'. destruct A' as [<- <-]. destruct D as [[D _]|[_ ->]]; [contradiction|reflexivity].
  - apply IV in A'. destruct A' as [[A' _]|[[D _]|[_ (r & Z & A' & D)]]]; [apply IH in A'; discriminate|discriminate|].
    apply IH in A'. injection A' as <- <-. destruct D as [[D _]|[_ ->]]; [contradiction|reflexivity].
Qed.

(** ** printing a list *)
Lemma dump_from_ok H L : forall o is, links n_next (pl_nodes L) o is -> forall ds,
  Forall2 (fun i d => exists p, nth_error (pl_nodes L) i = Some p /\ state_dump H (n_st p) = Ok d) is ds ->
  forall fuel, length is <= fuel -> dump_from H L fuel o = Ok ds.
Proof.
  induction 1 as [|i p l P _ IH]; intros ds F fuel LE; inversion F as [|? d ? ds' (p' & P' & D) F']; subst.
  - now destruct fuel.
  - destruct fuel as [|fuel]; [cbn in LE; lia|]. cbn [dump_from]. rewrite P in P'. injection P' as <-.
    rewrite P, D. cbn [rbind]. rewrite (IH ds' F') by (cbn in LE; lia). reflexivity.
Qed.
Lemma c86_dump_list e H L l vals fuel : history e H L -> added e l -> Forall2 printable l vals -> length l <= fuel ->
  pts_dump H L fuel = Ok (map lines vals).
Proof.
  intros Hi A F LE. destruct (c86_history _ _ _ Hi) as (l' & A' & C & S & LN & _).
  rewrite <- (c86_one_answer _ _ A _ A') in *. unfold pts_dump. apply (dump_from_ok H L _ _ LN); [|unfold pts_size in S; lia].
  unfold contents in C. clear - C F. revert vals F.
  induction C as [|i V is l (p & P & Sh) _ IH]; intros vals F; inversion F as [|? v ? vals' Q F']; subst; [constructor|].
  cbn [map]. constructor; [|now apply IH]. exists p. split; [exact P|]. now apply (c86_dump H _ V).
Qed.

(** ** paths *)
Lemma history_snoc e H L s V H' L' : history e H L -> shows H s V -> stored V -> pts_add H L s = Ok (H', L') ->
  history (e ++ [(Back, V)]) H' L'.
Proof. apply h_add. Qed.
Lemma cells_sub H a cs n m : cells_at H a cs -> n + m <= length cs ->
  cells_at H (fst a, snd a + n) (firstn m (skipn n cs)).
Proof.
  intros (x & y & E & LX) LE. exists (x ++ firstn n cs), (skipn m (skipn n cs) ++ y). cbn. split.
  - rewrite E. f_equal. rewrite <- app_assoc. f_equal.
    rewrite (app_assoc (firstn m (skipn n cs))), (firstn_skipn m). now rewrite app_assoc, firstn_skipn.
  - rewrite app_length, firstn_length_le by lia. lia.
Qed.
Lemma row_stored n v i : stored (row n v i).
Proof.
  intros k cs _. unfold row. cbn. destruct k; try discriminate. intro E. injection E as <-.
  apply Forall_forall. intros c I. apply in_map_iff in I. destruct I as (x & <- & _). discriminate.
Qed.
Lemma row_shown H path v n m i : cells_at H path (map Some v) -> length v = n * m -> i < m ->
  shows H (mkC n 0 (set_ptr no_ptr Pq (Some (fst path, snd path + i * n)))) (row n v i).
Proof.
  intros C L I. assert (B : i * n + n <= length v) by (rewrite L; nia).
  split; [reflexivity|]. split; [reflexivity|]. intros [| | | | | | | |]; cbn; try exact Logic.I.
  split.
  - rewrite <- firstn_map, <- skipn_map. apply cells_sub; [exact C|]. rewrite map_length. exact B.
  - rewrite map_length, firstn_length, skipn_length. lia.
Qed.
Definition fresh_from (n : nat) (L : plist) : Prop := forall i, owned L i -> n <= i.
Lemma owned_add L s i : owned (list_add L s) i -> owned L i \/ exists k a, c_ptr s k = Some a /\ fst a = i.
Proof.
  intros (p & k & a & I & K & E). apply In_nth_error in I. destruct I as [j J].
  destruct (lt_dec j (length (pl_nodes L))) as [l|g].
  - left. destruct (nth_error (pl_nodes L) j) as [p0|] eqn:P; [|apply nth_error_None in P; lia].
    destruct (add_states L s j p0 P) as (p' & P' & Q). rewrite J in P'. injection P' as <-.
    exists p0, k, a. split; [now apply nth_error_In in P|]. now rewrite <- Q.
  - right. destruct (add_new L s) as (p' & P' & Q).
    assert (j = length (pl_nodes L)).
    { assert (j < length (pl_nodes (list_add L s))) by (apply nth_error_Some; congruence).
      unfold list_add in H. cbn [pl_nodes] in H. rewrite app_length in H. cbn in H.
      destruct (back (pl_list L)); [rewrite set_next_len in H|]; lia. }
    subst j. rewrite J in P'. injection P' as <-. rewrite Q in K. eauto.
Qed.
Lemma owned_lt e H L i : history e H L -> owned L i -> i < length H.
Proof.
  intros Hi (p & k & a & I & K & E). destruct (history_good _ _ _ Hi) as (l & A & C & SL & _ & (_ & _ & I2)).
  apply In_nth_error in I. destruct I as [j J].
  assert (JL : In j (pl_list L)) by (apply I2, nth_error_Some; congruence).
  unfold contents in C. clear - C JL J K E. induction C as [|x V is l (p' & P & Sh) _ IH]; [destruct JL|].
  destruct JL as [->|JL]; [|now apply IH]. rewrite J in P. injection P as <-.
  destruct Sh as (_ & _ & Sh). specialize (Sh k). rewrite K in Sh. destruct (v_arr V k); [|contradiction].
  rewrite <- E. apply (cells_in _ _ _ (proj1 Sh)).
Qed.
Lemma path_loop_ok n m path v H0 : n <> 0 -> length v = n * m -> fst path < length H0 -> cells_at H0 path (map Some v) ->
  forall r i H L fuel e, r + i = m -> r <= fuel -> grew H0 H -> history e H L -> fresh_from (length H0) L ->
  exists H' L', path_loop fuel n m path (i * n) H L = Ok (H', L') /\ grew H0 H' /\
    history (e ++ map (fun j => (Back, row n v j)) (seq i r)) H' L' /\ fresh_from (length H0) L'.
Proof.
  intros N LV PL C. induction r as [|r IH]; intros i H L fuel e E F G Hi FR.
  - cbn in E. subst i. exists H, L. assert (X : (m * n <? n * m) = false) by (apply Nat.ltb_ge; lia).
    destruct fuel; cbn [path_loop]; rewrite X; cbn [seq map]; rewrite app_nil_r; auto.
  - assert (X : (i * n <? n * m) = true) by (apply Nat.ltb_lt; nia).
    destruct fuel as [|fuel]; [lia|]. cbn [path_loop]. rewrite X.
    set (s := mkC n 0 (set_ptr no_ptr Pq (Some (fst path, snd path + i * n)))).
    assert (Sh : shows H s (row n v i)) by (apply (row_shown H path v n m i); [now apply (cells_grew H0)|exact LV|lia]).
    destruct (c86_history _ _ _ Hi) as (l & A & CT & _ & _ & _ & PR).
    destruct (PR s _ Sh (row_stored n v i)) as [(H' & L' & R & G') _]. rewrite R. cbn [rbind fst snd].
    assert (FR' : fresh_from (length H0) L').
    { unfold pts_add in R. destruct (eq_at H L (back (pl_list L)) s) as [[|]| |]; cbn [rbind] in R; try discriminate.
      - injection R as <- <-. exact FR.
      - destruct (c86_clone H s _ Sh) as (H2 & s2 & CL & _ & M & _). rewrite CL in R. cbn in R. injection R as <- <-.
        intros x O. apply owned_add in O. destruct O as [O|(k & a & K & <-)]; [now apply FR|].
        destruct (M k a K) as [B _]. apply grew_len in G. lia. }
    replace (i * n + n) with (S i * n) by lia.
    destruct (IH (S i) H' L' fuel (e ++ [(Back, row n v i)])) as (H3 & L3 & R3 & G3 & Hi3 & F3); try lia;
      [now apply (grew_trans _ H)|apply (h_add e H L s (row n v i)); [exact Hi|exact Sh|apply row_stored|exact R]|exact FR'|].
    exists H3, L3. split; [exact R3|]. split; [exact G3|]. split; [|exact F3].
    cbn [seq map]. rewrite <- app_assoc in Hi3. exact Hi3.
Qed.
Lemma c86_path H n m path v fuel : cells_at H path (map Some v) -> length v = n * m -> 0 < n -> m <= fuel ->
  exists H' L, rx_pt_list fuel H n m path = Ok (H', L) /\ grew H H' /\
    history (map (fun i => (Back, row n v i)) (seq 0 m)) H' L /\
    forall i, owned L i -> length H <= i.
Proof.
  intros C LV N F. unfold rx_pt_list.
  destruct (path_loop_ok n m path v H ltac:(lia) LV (cells_in _ _ _ C) C m 0 H pt_create fuel []) as (H' & L & R & G & Hi & FR);
    try lia; [apply grew_refl|constructor|intros i (p & k & a & [] & _)|].
  exists H', L. auto.
Qed.
Lemma c86_path_empty H m path fuel : rx_pt_list fuel H 0 m path = Ok (H, pt_create).
Proof. unfold rx_pt_list. now destruct fuel. Qed.
