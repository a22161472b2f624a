(** aa_io_fread_matrix_heap. *)
From Coq Require Import ZArith Reals List Bool Arith Lia.
From Verif Require Import RegionModel RegionSpec RegionProofs IoModel IoSpec IoProofs IoNum IoLines IoVec IoMat.
Import ListNotations.
Open Scope nat_scope.

Section Heap.
  Variable strtod : list Z -> R * nat.

  Lemma no_data_skip l : no_data l -> match skipblank l with [] => true | _ => iscomment (skipblank l) end = true.
  Proof.
    intros (b & r & -> & Hb & Hr). rewrite skip_blanks by exact Hb. destruct Hr as [->|Hr]; [reflexivity|].
    rewrite skip_starts by now apply comment_starts. pose proof (proj2 (comment_iff r) Hr) as C. destruct r; [reflexivity|exact C].
  Qed.
  Lemma kept_trans s1 s2 s3 : rchunks s2 = rchunks s1 -> (rhead s1 <= rhead s2)%Z -> kept s1 s2 -> kept s2 s3 -> kept s1 s3.
  Proof.
    intros C H K1 K2 x c cs Cx Hx. rewrite (K2 x c cs); [now apply (K1 x c cs)|congruence|lia].
  Qed.
  Lemma rounded_ge z : (z <= rounded z)%Z.
  Proof. unfold rounded. pose proof (Z.mul_succ_div_gt (z + 15) 16). lia. Qed.
  Lemma data_nonneg n ls rows z w : data strtod n ls rows z w -> (0 <= w)%Z.
  Proof. induction 1; try lia. pose proof (rounded_ge (size l + 1)). unfold size in *. lia. Qed.

  (** a row, past its blanks *)
  Lemma row_str n l xs : 1 <= n -> row strtod n l xs ->
    skipblank l <> [] /\ iscomment (skipblank l) = false /\
    length xs = n /\ exists more tail, number_line strtod (skipblank l) (xs ++ more) tail.
  Proof.
    intros Hn (Hlen & more & tail & b & str & -> & Hb & Hnum & _).
    rewrite skip_blanks by exact Hb. rewrite skip_starts by (eapply numbers_starts; exact Hnum).
    assert (Hne : xs ++ more <> []) by (destruct xs; [cbn in Hlen; lia|discriminate]).
    split; [|split; [|split; [exact Hlen|exists more, tail, [], str; repeat split; [constructor|exact Hnum|now left]]]].
    - inversion Hnum as [Hs E1 E2|t x g r ys Ht Hg He Hr E1 E2]; [congruence|].
      destruct Ht as [(c & t' & -> & _) _]. discriminate.
    - inversion Hnum as [Hs E1 E2|t x g r ys Ht Hg He Hr E1 E2]; [congruence|].
      destruct Ht as [(c & t' & -> & _ & Hc) _]. cbn. now apply Z.eqb_neq.
  Qed.

  Definition fits (A : heap) (n got : nat) : Prop := got <= h_elts A /\ n <= 2 * h_elts A /\ (got = 0 \/ n <= h_elts A).
  Lemma heap_prefix ms n : 1 <= n -> forall ls rows z w, data strtod n ls rows z w ->
    forall fuel more s lineno got A, free_at s z -> fits A n got ->
    exists s' A', lines_from strtod (length ls + fuel) ms (text_of (ls ++ more)) (last_line (ls ++ more)) s n lineno got A =
        lines_from strtod fuel ms (text_of more) (last_line more) s' n (lineno + length ls) (got + length rows * n) A' /\
      rhead s' = (rhead s + w)%Z /\ rchunks s' = rchunks s /\ kept s s' /\ free_at s' (z - w) /\ fits A' n (got + length rows * n) /\
      (forall i xs j x, nth_error rows i = Some xs -> nth_error xs j = Some x -> h_data A' (got + i * n + j) = x) /\
      (forall q, (q < got \/ got + length rows * n <= q) -> h_data A' q = h_data A q).
  Proof.
    intros Hn. induction 1 as [z|l ls rows z w Hp Hd Hz HD IH|l ls xs rows z w Hp Hrow Hz HD IH];
      intros fuel more s lineno got A Hf HA.
    - exists s, A. cbn [length app Nat.add Nat.mul]. rewrite !Nat.add_0_r, Z.add_0_r, Z.sub_0_r.
      split; [reflexivity|]. repeat (split; [first [reflexivity|assumption|(unfold kept; reflexivity)]|]).
      split; [|reflexivity]. intros i xs j x E. destruct i; discriminate.
    - cbn [length app Nat.add lines_from last_line].
      destruct (line_read (ms lineno) l (ls ++ more) s z Hf Hp Hz) as (s1 & G & C & Hh & K & Str & Pop).
      rewrite G. cbn [andthen]. rewrite Str. rewrite (no_data_skip l Hd).
      pose proof (rounded_ge (size l + 1)). assert (0 <= size l)%Z by (unfold size; lia).
      assert (Hf1 : free_at s1 (z - rounded (size l + 1))).
      { destruct Hf as (c & cs & C1 & G1 & Hb & Hmod & Hzc). exists c, cs. rewrite C, Hh.
        repeat split; try assumption; try lia. unfold rounded.
        rewrite Z.add_mod, Hmod, Z.mul_comm, Z.mod_mul by lia. reflexivity. }
      destruct (IH fuel more s1 (S lineno) got A Hf1 HA) as (s2 & A2 & E & H2 & C2 & K2 & F2 & T2 & V2 & O2).
      exists s2, A2. split.
      { rewrite <- Nat.add_succ_comm. exact E. }
      split; [lia|]. split; [congruence|]. split; [apply (kept_trans s s1); auto; lia|].
      split; [replace (z - (rounded (size l + 1) + w))%Z with (z - rounded (size l + 1) - w)%Z by lia; exact F2|].
      auto.
    - cbn [length app Nat.add lines_from last_line].
      destruct (line_read (ms lineno) l (ls ++ more) s z Hf Hp Hz) as (s1 & G & C & Hh & K & Str & Pop).
      rewrite G. cbn [andthen]. rewrite Str.
      destruct (row_str n l xs Hn Hrow) as (Hne & Hc & Hlen & more' & tail & HL).
      assert (Esk : match skipblank l with [] => true | _ => iscomment (skipblank l) end = false).
      { destruct (skipblank l); [congruence|exact Hc]. }
      rewrite Esk. clear Esk.
      set (A1 := if h_elts A <? got + n then mkH (h_elts A * 2) (h_data A) else A).
      assert (HA1 : got + n <= h_elts A1 /\ h_data A1 = h_data A).
      { unfold A1. destruct HA as (X1 & X2 & X3). destruct (Nat.ltb_spec (h_elts A) (got + n)); cbn [h_elts h_data]; split; try reflexivity; lia. }
      destruct HA1 as [HA1 HA1d].
      destruct (vector_ok strtod (skipblank l) (xs ++ more') tail n got 1 (h_data A1) HL) as (rest & X' & P & L & V & O);
        [lia|left; rewrite app_length; lia|].
      rewrite app_length in P, O. rewrite Nat.min_l in P, O by lia. rewrite P. cbn [fst snd].
      rewrite Nat.ltb_irrefl. destruct (Nat.ltb_spec (h_elts A1) (got + n)); [lia|].
      rewrite Nat.eqb_refl. cbn [negb].
      destruct (Pop (ms lineno 0)) as (s2 & Pp & P1 & P2 & P3). rewrite Pp. cbn [region andthen].
      assert (B : back s s2).
      { split; [exact P1|]. split; [exact P2|]. intros x c cs Cx Hx. rewrite P3. now apply (K x c cs). }
      assert (Fn : firstn n (xs ++ more') = xs). { rewrite <- Hlen, firstn_app, Nat.sub_diag, firstn_all. cbn. apply app_nil_r. }
      rewrite Fn in V.
      assert (HF : fits (mkH (h_elts A1) X') n (got + n)) by (unfold fits; cbn [h_elts]; lia).
      destruct (IH fuel more s2 (S lineno) (got + n) _ (back_free _ _ _ B Hf) HF) as (s3 & A3 & E & H3 & C3 & K3 & F3 & T3 & V3 & O3).
      exists s3, A3. split.
      { rewrite <- Nat.add_succ_comm. replace (got + S (length rows) * n) with (got + n + length rows * n) by lia. exact E. }
      split; [rewrite H3, P1; reflexivity|]. split; [congruence|].
      split; [apply (kept_trans s s2); [congruence|lia|apply B|exact K3]|].
      split; [exact F3|]. replace (got + S (length rows) * n) with (got + n + length rows * n) by lia. split; [exact T3|].
      cbn [h_data] in O3. split.
      + intros [|i] ys j x Ei Ej.
        * cbn in Ei. injection Ei as <-. assert (j < n) by (rewrite <- Hlen; apply nth_error_Some; congruence).
          cbn [Nat.mul]. rewrite Nat.add_0_r. rewrite O3 by lia. specialize (V j x Ej). now rewrite Nat.mul_1_r in V.
        * cbn in Ei. replace (got + S i * n + j) with (got + n + i * n + j) by lia. exact (V3 i ys j x Ei Ej).
      + intros q Hq. rewrite O3 by lia. rewrite O; [now rewrite HA1d|]. intros i Hi. lia.
  Qed.

  Lemma text_lines ls : length ls <= S (length (text_of ls)).
  Proof.
    induction ls as [|l ls IH]; [cbn; lia|]. rewrite text_cons, app_length. destruct ls; cbn [tail_of length] in *; lia.
  Qed.
  Definition start (n : nat) (A : option heap) (junk : nat -> R) : heap :=
    match A with Some h => if h_elts h =? 0 then mkH n junk else h | None => mkH n junk end.

  Lemma heap_ok ms n ls rows w A junk s k :
    reach s k -> 1 <= n -> ls <> [] -> data strtod n ls rows (region_freesize s) w ->
    (forall h, A = Some h -> h_elts h = 0 \/ n <= 2 * h_elts h) ->
    exists A' s', fread_matrix_heap strtod ms (text_of ls) s n A junk = Got (Z.of_nat (length rows), A', [], s') /\
      length rows * n <= h_elts A' /\
      (forall i xs j x, nth_error rows i = Some xs -> nth_error xs j = Some x -> h_data A' (i * n + j) = x) /\
      region_ptr s' = (region_ptr s + w)%Z /\ rchunks s' = rchunks s /\
      (forall b, In b k -> readable (rmem s') b).
  Proof.
    intros Hr Hn Hls HD HA.
    assert (Hz : (0 < region_freesize s)%Z).
    { destruct HD as [z|l ls rows z w Hp Hd Hz HD|l ls xs rows z w Hp Hrow Hz HD]; [congruence| |]; unfold size in Hz; lia. }
    assert (Hf : free_at s (region_freesize s)) by (apply (reach_free s k); [exact Hr|exact Hz|lia]).
    unfold fread_matrix_heap. fold (start n A junk).
    assert (HF : fits (start n A junk) n 0).
    { unfold start, fits. destruct A as [h|]; cbn [h_elts]; [|lia]. specialize (HA h eq_refl).
      destruct (Nat.eqb_spec (h_elts h) 0); cbn [h_elts]; lia. }
    destruct (heap_prefix ms n Hn ls rows _ w HD (S (length (text_of ls)) - length ls) [] s 0 0 _ Hf HF)
      as (s' & A' & E & H1 & C1 & K1 & F1 & T1 & V1 & O1).
    rewrite app_nil_r in E. replace (length ls + (S (length (text_of ls)) - length ls)) with (S (length (text_of ls))) in E
      by (pose proof (text_lines ls); lia).
    replace (last_line ls) with false in E by (destruct ls; [congruence|reflexivity]).
    rewrite E. exists A', s'. cbn [Nat.add] in *.
    split.
    { destruct (S (length (text_of ls)) - length ls); cbn [lines_from last_line text_of]; destruct (Nat.eqb_spec n 0); try lia;
        now rewrite Nat.div_mul by lia. }
    split; [apply T1|]. split; [exact V1|]. split; [exact H1|]. split; [exact C1|].
    intros b Hb. apply (kept_blocks s s' k Hr K1 b Hb). now apply (reach_readable s k).
  Qed.

  Lemma heap_bad ms n good rows w bad more A junk s k :
    reach s k -> 1 <= n -> data strtod n good rows (region_freesize s) w ->
    plain bad -> bad_line strtod n bad -> (size bad + 1 <= region_freesize s - w)%Z ->
    (forall h, A = Some h -> h_elts h = 0 \/ n <= 2 * h_elts h) ->
    exists A' s', fread_matrix_heap strtod ms (text_of (good ++ bad :: more)) s n A junk =
        Got ((- Z.of_nat (S (length good)))%Z, A', text_of more, s') /\
      (forall i xs j x, nth_error rows i = Some xs -> nth_error xs j = Some x -> h_data A' (i * n + j) = x) /\
      region_ptr s' = (region_ptr s + w + rounded (size bad + 1))%Z /\ rchunks s' = rchunks s /\
      (forall b, In b k -> readable (rmem s') b).
  Proof.
    intros Hr Hn HD Hp Hbad Hsz HA. pose proof (data_nonneg _ _ _ _ _ HD) as Hw. assert (0 <= size bad)%Z by (unfold size; lia).
    assert (Hf : free_at s (region_freesize s)) by (apply (reach_free s k); [exact Hr|lia|lia]).
    unfold fread_matrix_heap. fold (start n A junk).
    assert (HF : fits (start n A junk) n 0).
    { unfold start, fits. destruct A as [h|]; cbn [h_elts]; [|lia]. specialize (HA h eq_refl).
      destruct (Nat.eqb_spec (h_elts h) 0); cbn [h_elts]; lia. }
    set (T := text_of (good ++ bad :: more)).
    destruct (heap_prefix ms n Hn good rows _ w HD (S (length T) - length good) (bad :: more) s 0 0 _ Hf HF)
      as (s1 & A1 & E & H1 & C1 & K1 & F1 & T1 & V1 & O1).
    pose proof (text_lines (good ++ bad :: more)) as HT. fold T in HT, E. rewrite app_length in HT. cbn [length] in HT.
    replace (length good + (S (length T) - length good)) with (S (length T)) in E by lia.
    replace (last_line (good ++ bad :: more)) with false in E by (destruct good; reflexivity).
    rewrite E. destruct (S (length T) - length good) as [|fuel] eqn:Ef; [lia|].
    cbn [lines_from last_line Nat.add].
    destruct (line_read (ms (length good)) bad more s1 _ F1 Hp Hsz) as (s2 & G & C & Hh & K & Str & Pop).
    rewrite G. cbn [andthen]. rewrite Str.
    destruct Hbad as (b & str & xs & tail & -> & Hb & Hnum & Hlen & Hne & Hnc).
    rewrite (skip_blanks b str Hb), (skip_starts str) by (eapply numbers_starts; exact Hnum).
    assert (Esk : match str with [] => true | _ => iscomment str end = false).
    { destruct str; [congruence|]. destruct (iscomment (z :: str)) eqn:Ec; [|reflexivity]. apply comment_iff in Ec. contradiction. }
    rewrite Esk. clear Esk.
    set (got := length rows * n) in *.
    set (A2 := if h_elts A1 <? got + n then mkH (h_elts A1 * 2) (h_data A1) else A1).
    assert (HA2 : got + n <= h_elts A2 /\ h_data A2 = h_data A1).
    { unfold A2. destruct T1 as (X1 & X2 & X3). cbn [Nat.add] in X1, X3.
      destruct (Nat.ltb_spec (h_elts A1) (got + n)); cbn [h_elts h_data]; split; try reflexivity; lia. }
    destruct HA2 as [HA2 HA2d].
    assert (HL : number_line strtod str xs tail).
    { exists [], str. repeat split; [constructor|exact Hnum|now left]. }
    destruct (vector_steps strtod str xs tail n got 1 (h_data A2) HL) as (rest & X' & P & L & V & O & _); [lia|].
    rewrite Nat.min_r in P, O by lia. rewrite P. cbn [fst snd].
    destruct (Nat.ltb_spec (length xs) n); [|lia].
    match goal with |- context [if ?c then Overflow else _] => destruct c eqn:Eo end.
    { apply Nat.ltb_lt in Eo. destruct (iscomment rest); lia. }
    destruct (Nat.eqb_spec (length xs) n); [lia|]. cbn [negb].
    eexists _, s2. split; [reflexivity|]. cbn [h_data].
    split; [|split; [|split]].
    - intros i ys j x Ei Ej.
      assert (i < length rows) by (apply nth_error_Some; congruence).
      assert (Hj : j < n).
      { clear - HD Ei Ej. revert i Ei. induction HD as [z|l ls rows z w Hp Hd Hz HD IH|l ls xs rows z w Hp [Hrow _] Hz HD IH]; intros i Ei.
        - destruct i; discriminate.
        - now apply (IH i).
        - destruct i as [|i]; cbn in Ei; [injection Ei as <-; rewrite <- Hrow; apply nth_error_Some; congruence|now apply (IH i)]. }
      assert (i * n + j < got) by (unfold got; nia).
      rewrite O; [rewrite HA2d; exact (V1 i ys j x Ei Ej)| |]; intros; lia.
    - unfold region_ptr in *. lia.
    - congruence.
    - intros bl Hbl. apply (kept_blocks s s2 k Hr); [|exact Hbl|now apply (reach_readable s k)].
      apply (kept_trans s s1); [exact C1|lia|exact K1|exact K].
  Qed.

  (** not enough room, even when doubled *)
  Lemma heap_small ms n l ls xs h junk s k :
    reach s k -> plain l -> row strtod n l xs -> (size l + 1 <= region_freesize s)%Z ->
    0 < h_elts h -> 2 * h_elts h < n ->
    fread_matrix_heap strtod ms (text_of (l :: ls)) s n (Some h) junk = Overflow.
  Proof.
    intros Hr Hp Hrow Hsz H0 H2. assert (0 <= size l)%Z by (unfold size; lia).
    assert (Hf : free_at s (region_freesize s)) by (apply (reach_free s k); [exact Hr|lia|lia]).
    unfold fread_matrix_heap. destruct (Nat.eqb_spec (h_elts h) 0); [lia|]. cbn [lines_from].
    destruct (line_read (ms 0) l ls s _ Hf Hp Hsz) as (s1 & G & C & Hh & K & Str & Pop).
    rewrite G. cbn [andthen]. rewrite Str.
    destruct (row_str n l xs ltac:(lia) Hrow) as (Hne & Hc & Hlen & more' & tail & HL).
    assert (Esk : match skipblank l with [] => true | _ => iscomment (skipblank l) end = false).
    { destruct (skipblank l); [congruence|exact Hc]. }
    rewrite Esk. clear Esk. cbn [Nat.add]. destruct (Nat.ltb_spec (h_elts h) n); [|lia].
    set (A1 := mkH (h_elts h * 2) (h_data h)).
    destruct (vector_ok strtod (skipblank l) (xs ++ more') tail n 0 1 (h_data A1) HL) as (rest & X' & P & L & V & O);
      [lia|left; rewrite app_length; lia|].
    rewrite app_length in P. rewrite Nat.min_l in P by lia. rewrite P. cbn [fst snd]. rewrite Nat.ltb_irrefl.
    unfold A1. cbn [h_elts]. destruct (Nat.ltb_spec (h_elts h * 2) n); [reflexivity|lia].
  Qed.

  (** no columns *)
  Definition all_kept (ls : list (list Z)) : Z := fold_right (fun l acc => (rounded (size l + 1) + acc)%Z) 0%Z ls.
  Lemma kept_nonneg ls : (0 <= all_kept ls)%Z.
  Proof.
    induction ls as [|a ls IH]; [cbn; lia|]. change (all_kept (a :: ls)) with (rounded (size a + 1) + all_kept ls)%Z.
    pose proof (rounded_ge (size a + 1)). unfold size in *. lia.
  Qed.
  Lemma heap_zero_run ms : forall ls fuel s lineno A z, free_at s z -> (all_kept ls <= z)%Z -> Forall plain ls -> length ls <= fuel ->
    lines_from strtod fuel ms (text_of ls) (last_line ls) s 0 lineno 0 A = DivZero.
  Proof.
    induction ls as [|l ls IH]; intros fuel s lineno A z Hf Hz Hp Hfu.
    - destruct fuel; reflexivity.
    - apply Forall_cons_iff in Hp. destruct Hp as [Hp Hps]. destruct fuel as [|fuel]; [cbn in Hfu; lia|].
      cbn [all_kept fold_right] in Hz. fold (all_kept ls) in Hz.
      pose proof (kept_nonneg ls) as Hk0.
      pose proof (rounded_ge (size l + 1)).
      destruct (line_read (ms lineno) l ls s z Hf Hp ltac:(lia)) as (s1 & G & C & Hh & K & Str & Pop).
      cbn [lines_from last_line]. rewrite G. cbn [andthen]. rewrite Str.
      destruct (match skipblank l with [] => true | _ => iscomment (skipblank l) end).
      + apply (IH fuel s1 (S lineno) A (z - rounded (size l + 1))%Z); [|lia|exact Hps|cbn in Hfu; lia].
        destruct Hf as (c & cs & C1 & G1 & Hb & Hmod & Hzc). exists c, cs. rewrite C, Hh.
        unfold size in *. repeat split; try assumption; try lia. unfold rounded.
        rewrite Z.add_mod, Hmod, Z.mul_comm, Z.mod_mul by lia. reflexivity.
      + unfold parsevector. cbn [parse_from fst snd Nat.ltb Nat.leb Nat.add Nat.eqb negb].
        destruct (Pop (ms lineno 0)) as (s2 & Pp & P1 & P2 & P3). rewrite Pp. cbn [region andthen].
        apply (IH fuel s2 (S lineno) _ z); [|unfold size in *; lia|exact Hps|cbn in Hfu; lia].
        destruct Hf as (c & cs & C1 & G1 & Hb & Hmod & Hzc). exists c, cs. rewrite P1, P2. auto.
  Qed.
  Lemma heap_zero ms ls A junk s k :
    reach s k -> ls <> [] -> Forall plain ls -> (all_kept ls <= region_freesize s)%Z ->
    fread_matrix_heap strtod ms (text_of ls) s 0 A junk = DivZero.
  Proof.
    intros Hr Hls Hp Hk. unfold fread_matrix_heap.
    replace false with (last_line ls) by (destruct ls; [congruence|reflexivity]).
    apply (heap_zero_run ms ls _ s 0 _ (region_freesize s)); [|exact Hk|exact Hp|apply text_lines].
    apply (reach_free s k); [exact Hr| |lia].
    destruct ls as [|l ls]; [congruence|]. change (all_kept (l :: ls)) with (rounded (size l + 1) + all_kept ls)%Z in Hk.
    pose proof (kept_nonneg ls) as Hk0.
    pose proof (rounded_ge (size l + 1)). assert (0 <= size l)%Z by (unfold size; lia). lia.
  Qed.
End Heap.
