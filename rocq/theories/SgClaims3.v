(** Proofs of the claims on chains and configuration subsets. *)
From Coq Require Import ZArith String List Bool Reals Lia Lra.
From Verif Require Import TfModel TfSpec TfProofs TfRotmatProofs TfRepProofs TfCalcProofs TfConvProofs TfFrameProofs
  SgModel SgSpec SgKinSpec SgMapProofs SgIndexProofs SgNumberProofs SgInvProofs SgQueryProofs SgClaims1 SgFkProofs SgFkProofs2 SgClaims2
  SgChainProofs.
Import ListNotations.
Open Scope Z_scope.

Lemma rooted_path g n : rooted g n -> named g -> exists ls, path g ""%string n ls.
Proof.
  intros H Nm. induction H as [n d G E|n d G E H IH].
  - exists ([] ++ [n]). apply path_step with (d := d); auto; try (intros ->; unfold named in Nm; congruence).
    rewrite E. constructor.
  - destruct IH as [ls P]. exists (ls ++ [n]). apply path_step with (d := d); auto; intros ->; unfold named in Nm; congruence.
Qed.
Lemma above_path g a n : above g a n -> named g -> forall l, path g ""%string n l -> exists ls, path g a n ls.
Proof.
  intros H Nm. induction H as [n d G E Ne|n d G E H IH]; intros l P.
  - destruct (String.string_dec n a) as [->|Nn]; [exists []; constructor|].
    exists ([] ++ [n]). apply path_step with (d := d); auto; [intros ->; unfold named in Nm; congruence|]. rewrite E. constructor.
  - destruct (String.string_dec n a) as [->|Nn]; [exists []; constructor|].
    inversion P as [Q1 Q2|n0 d0 l0 N1 N2 G0 P0 Q1 Q2]; subst; [unfold named in Nm; congruence|].
    assert (d0 = d) by congruence. subst d0.
    destruct (IH l0 P0) as [ls P']. exists (ls ++ [n]). apply path_step with (d := d); auto.
Qed.

(** every pair of a frame (or the root) and a tip has a chain *)
Lemma c50_exists g root tip : forest g -> (tip = ""%string \/ g tip <> None) -> exists ls, between g root tip ls.
Proof.
  intros [Nm Fo] T.
  assert (P : exists l, path g ""%string tip l).
  { destruct T as [->|T]; [exists []; constructor|]. destruct (g tip) as [d|] eqn:G; [|congruence].
    eapply rooted_path; eauto. }
  destruct P as [l P]. destruct (in_dec String.string_dec root l) as [H|H]; [|exists l; right; auto].
  revert H. induction P as [|n d l N1 N2 G P IH]; intros H; [destruct H|].
  apply in_app_iff in H as [H|[<-|[]]]; [|exists []; left; constructor].
  assert (Q : forall l', between g root (d_parent d) l' -> exists ls, between g root n ls).
  { intros l' [Q|[Q Nin]].
    - destruct (String.string_dec n root) as [->|Ne]; [exists []; left; constructor|].
      exists (l' ++ [n]). left. apply path_step with (d := d); auto.
    - exfalso. apply Nin. now rewrite (path_fun _ _ _ _ _ Q P). }
  destruct IH as [l' Hl]; auto. 2:{ eapply Q; eauto. }
  destruct (String.string_dec (d_parent d) "") as [E|E]; [now left|]. right. inversion P; subst; congruence.
Qed.

Lemma between_r g root tip ls : between g root tip ls -> exists r, path g r tip ls /\ (r = root \/ r = ""%string) /\ ~ In root ls.
Proof.
  intros [P|[P N]]; [exists root|exists ""%string]; repeat split; auto.
  intros H. destruct (path_in _ _ _ _ P _ H) as (_ & _ & _ & K). congruence.
Qed.

Lemma c50_chain h s root tip rz tz ls junk : ready h s -> forest (declared h) ->
  id_of s root rz -> id_of s tip tz -> between (declared h) root tip ls ->
  exists zs cs, chain_create s rz tz junk = Ok (mkSS zs cs (Some [tz])) /\
    Forall2 (id_of s) ls zs /\
    Forall2 (fun d c => config_id s (d_cfg d) = Ok c /\ 0 <= c) (joint_decls (declared h) ls) cs.
Proof.
  intros Rd Fo Zr Zt B. destruct (ready_inv _ _ Rd) as [I [l X]]. destruct Rd as [_ D].
  destruct (between_r _ _ _ _ B) as (r & P & Hr & Nin).
  destruct (chain_create_ok _ _ _ _ I X D Fo root rz Zr r Hr tip ls tz junk P Nin Zt) as (zs & cs & E & H1 & H2).
  exists zs, cs. auto.
Qed.

Lemma entry_posed g s cfg abs n : entry g s cfg abs n <-> posed_at g s cfg abs n.
Proof.
  unfold entry, posed_at, lpos, zid, id_of, unit_qutr. split; (intros [H|(i & E & H1 & H2 & H3 & H4)]; [now left|right; exists i, E; auto]).
Qed.

Lemma c50_fk h s root tip rz tz ls junk ss cfg v abs0 n : ready h s -> forest (declared h) -> proper (declared h) ->
  config_count s = Ok n ->
  id_of s root rz -> id_of s tip tz -> between (declared h) root tip ls -> chain_create s rz tz junk = Ok ss ->
  dv_len v = length (ss_configs ss) ->
  (forall j d, nth_error (joint_decls (declared h) ls) j = Some d -> dv_get v j = Some (cfg (d_cfg d))) ->
  Z.of_nat (length abs0) = frame_count s ->
  posed_at (declared h) s cfg abs0 root ->
  exists abs, fk_sub s ss v abs0 = Ok abs /\ Z.of_nat (length abs) = frame_count s /\
    (forall m, In m ls -> posed_at (declared h) s cfg abs m) /\
    (forall m i, ~ In m ls -> frame_no s m i -> nth_error abs i = nth_error abs0 i).
Proof.
  intros Rd Fo Pr Cn Zr Zt B Cc Lv Hv La Ro. destruct (ready_inv _ _ Rd) as [I [l X]]. destruct Rd as [_ D].
  destruct (between_r _ _ _ _ B) as (r & P & Hr & Nin).
  destruct (chain_create_ok _ _ _ _ I X D Fo root rz Zr r Hr tip ls tz junk P Nin Zt) as (zs & cs & E & H1 & H2).
  rewrite E in Cc. injection Cc as <-. cbn [ss_configs ss_frames] in *.
  destruct (ready_count _ _ _ X Cn) as [Cs Lc]. rewrite (count_eq _ _ _ I _ X (proj1 Fo)) in *.
  set (ds := joint_decls (declared h) ls) in *.
  destruct (scatter_ok s l X cfg v ds cs 0 (repeat None n) H2) as (qo & Sc & Lq & Ag & _).
  { intros d c Hd Hc. rewrite repeat_length, <- Lc. apply (config_id_inv _ _ _ _ X) in Hc.
    apply nth_error_Some. congruence. }
  { exact Hv. }
  assert (Er : entry (declared h) s cfg abs0 r).
  { destruct Hr as [->| ->]; [exact (proj2 (entry_posed _ _ _ _ _) Ro)|now left]. }
  destruct (fk_sub_path _ _ _ _ I X D Fo Pr cfg r qo tip ls P zs H1 ds) with (abs := abs0) as (abs & Ek & L' & _ & Hall & Hoth); auto; [lia|].
  exists abs. split; [|split; [lia|split]].
  - unfold fk_sub, clean. rewrite D, Cn. cbn [bind]. unfold sub_scatter. rewrite Cn. cbn [bind ss_configs ss_frames].
    rewrite Lv, repeat_length, !Nat.eqb_refl. cbn [negb orb]. rewrite Sc. exact Ek.
  - intros m M. exact (proj1 (entry_posed _ _ _ _ _) (Hall m M)).
  - intros m i Nm Fi. apply Hoth. intros Hin.
    apply Nm. clear -H1 Hin Fi I X Fo. revert Hin. induction H1 as [|n z ls zs Z H IH]; [intros []|intros [Hz|Hz]].
    + subst z. left. eapply zid_inj; eauto. split; [exact Fi|unfold FRAME_NONE; lia].
    + right; auto.
Qed.

(** ** C51 *)
Lemma multi_frames_nil s root tips : multi_frames s root tips [] = Ok [].
Proof.
  induction tips as [|t r IH]; auto. cbn [multi_frames multi_walk existsb negb].
  now destruct (negb (t =? root) && negb (t =? FRAME_ROOT)).
Qed.
Lemma c51_empty s root tips ss : multiple_chain_create s root tips = Ok ss -> ss_frames ss = [] /\ ss_configs ss = [] /\ ss_ees ss = None.
Proof.
  unfold multiple_chain_create. destruct (multi_count s root tips); cbn [bind]; try discriminate.
  rewrite multi_frames_nil. cbn. intros [= <-]. auto.
Qed.
Lemma multi_count_ok h s root rz : ready h s -> forest (declared h) -> id_of s root rz ->
  forall tips tzs, Forall2 (id_of s) tips tzs -> exists n, multi_count s rz tzs = Ok n.
Proof.
  intros Rd Fo Zr. destruct (ready_inv _ _ Rd) as [I [l X]]. pose proof Rd as [_ D].
  induction 1 as [|t z tips tzs Zt H [n IH]]; [eexists; reflexivity|]. cbn [multi_count].
  assert (T : t = ""%string \/ declared h t <> None).
  { destruct (String.string_dec t "") as [->|Ne]; [now left|]. right.
    destruct (zid_nth _ _ _ _ I X Fo _ _ Zt Ne) as (j & -> & J). destruct (frame_at_ok _ _ _ I _ X _ _ J) as (f & F & _).
    rewrite (find_decl _ _ _ I _ _ F). discriminate. }
  destruct (c50_exists _ root t Fo T) as [ls B]. destruct (between_r _ _ _ _ B) as (r & P & Hr & Nin).
  unfold chain_frame_count. rewrite (chain_count_ok _ _ _ _ I X D Fo root rz Zr r Hr t ls P Nin z Zt).
  - rewrite IH. cbn [bind]. eauto.
  - rewrite (frames_len _ _ _ _ I X Fo). destruct (String.string_dec t "") as [->|Ne].
    + rewrite (zid_fun _ _ _ _ Zt (zid_root _)). unfold FRAME_ROOT. lia.
    + destruct (zid_nth _ _ _ _ I X Fo _ _ Zt Ne) as (j & -> & J).
      assert (j < length l)%nat by (apply nth_error_Some; congruence). lia.
Qed.
Lemma c51_always h s root rz tips tzs : ready h s -> forest (declared h) -> id_of s root rz -> Forall2 (id_of s) tips tzs ->
  multiple_chain_create s rz tzs = Ok (mkSS [] [] None).
Proof.
  intros Rd Fo Zr H. unfold multiple_chain_create. destruct (multi_count_ok _ _ _ _ Rd Fo Zr _ _ H) as [n ->].
  cbn [bind]. rewrite multi_frames_nil. reflexivity.
Qed.

(** ** C53 *)
Section Conf.
  Context {A : Type}.
  Lemma config_set_ok : forall (ids : list Z) (sub all : list A), NoDup ids -> ids_ok ids all -> (length ids <= length sub)%nat ->
    exists all', config_set ids sub all = Ok all' /\ replaced ids sub all all'.
  Proof.
    induction ids as [|z r IH]; intros sub all Nd Ok1 Le.
    - exists all. split; auto. split; auto. split; auto. intros [|k]; discriminate.
    - destruct sub as [|x xs]; [cbn in Le; lia|]. cbn [config_set].
      pose proof (Ok1 z (or_introl eq_refl)) as Bz.
      destruct (Z.ltb_spec z 0); [lia|]. destruct (Nat.ltb_spec (Z.to_nat z) (length all)); [|lia]. cbn [negb orb].
      inversion Nd as [|? ? Nz Nd']; subst.
      destruct (IH xs (set_at all (Z.to_nat z) x)) as (all' & E & L & H1 & H2); auto.
      + intros y Hy. rewrite set_at_len. apply Ok1. now right.
      + cbn in Le. lia.
      + exists all'. split; auto. rewrite set_at_len in L. split; auto. split.
        * intros [|k] y v Hy Hv; cbn in Hy, Hv.
          -- injection Hy as <-. injection Hv as <-. rewrite H2, nth_set_at, Nat.eqb_refl.
             ++ destruct (Nat.ltb_spec (Z.to_nat z) (length all)); [auto|lia].
             ++ rewrite Z2Nat.id by lia. exact Nz.
          -- eapply H1; eauto.
        * intros i Hi. rewrite H2, nth_set_at.
          -- destruct (Nat.eqb_spec (Z.to_nat z) i) as [<-|]; auto. exfalso. apply Hi. left. lia.
          -- intros K. apply Hi. now right.
  Qed.
  Lemma config_get_ok : forall (ids : list Z) (all : list A), ids_ok ids all ->
    exists sub, config_get ids all = Ok sub /\ length sub = length ids /\
      forall k z, nth_error ids k = Some z -> nth_error sub k = nth_error all (Z.to_nat z).
  Proof.
    induction ids as [|z r IH]; intros all Ok1.
    - exists []. repeat split. intros [|k]; discriminate.
    - pose proof (Ok1 z (or_introl eq_refl)) as Bz. cbn [config_get]. destruct (Z.ltb_spec z 0); [lia|].
      destruct (nth_error all (Z.to_nat z)) as [x|] eqn:N; [|apply nth_error_None in N; lia]. cbn [from bind].
      destruct (IH all) as (sub & -> & L & H1); [intros y Hy; apply Ok1; now right|]. cbn [bind].
      exists (x :: sub). split; auto. split; [cbn; lia|]. intros [|k] y Hy; cbn in Hy.
      + injection Hy as <-. now rewrite N.
      + cbn. auto.
  Qed.
  Lemma c53_get_set ids (sub all all' : list A) : NoDup ids -> ids_ok ids all -> length sub = length ids ->
    config_set ids sub all = Ok all' -> config_get ids all' = Ok sub.
  Proof.
    intros Nd Ok1 L E. destruct (config_set_ok ids sub all Nd Ok1) as (a & E1 & La & H1 & H2); [lia|].
    rewrite E in E1. injection E1 as <-.
    destruct (config_get_ok ids all') as (sub' & Eg & Lg & Hg).
    { intros z Hz. rewrite La. now apply Ok1. }
    rewrite Eg. f_equal. apply nth_error_ext. intros k.
    destruct (Nat.ltb_spec k (length ids)) as [Hk|Hk];
      [|rewrite (proj2 (nth_error_None sub' k)), (proj2 (nth_error_None sub k)) by lia; reflexivity].
    destruct (nth_error ids k) as [z|] eqn:Nz; [|apply nth_error_None in Nz; lia].
    rewrite (Hg _ _ Nz). destruct (nth_error sub k) as [x|] eqn:Nx; [|apply nth_error_None in Nx; lia].
    eapply H1; eauto.
  Qed.
  Lemma c53_expand ids start : forall (sub all : list (list A)) n, NoDup ids ->
    length all = length sub -> (forall x, In x sub -> length x = length ids) -> (forall a, In a all -> length a = n) ->
    (match start with Some q => length q = n | None => True end) ->
    (forall z, In z ids -> 0 <= z < Z.of_nat n) ->
    exists out, expand_path ids start sub all = Ok out /\ length out = length sub /\
      forall k x a, nth_error sub k = Some x -> nth_error all k = Some a ->
        exists o, nth_error out k = Some o /\
          replaced ids x (match start with Some q => q | None => a end) o.
  Proof.
    induction sub as [|x xs IH]; intros [|a r] n Nd L Lx Lall Ls B; cbn in L; try lia.
    - exists []. repeat split. intros [|k]; discriminate.
    - destruct (config_set_ok ids x (match start with Some q => q | None => a end)) as (o & E & Rp); auto.
      { intros z Hz. destruct start as [q|]; [rewrite Ls|rewrite (Lall a) by now left]; auto. }
      { rewrite (Lx x) by now left. lia. }
      cbn [expand_path]. rewrite E. cbn [bind].
      destruct (IH r n) as (out & -> & Lo & H); auto; try lia.
      { intros y Hy. apply Lx. now right. } { intros y Hy. apply Lall. now right. }
      cbn [bind]. exists (o :: out). split; auto. split; [cbn; lia|].
      intros [|k] y b Hy Hb; cbn in Hy, Hb.
      + injection Hy as <-. injection Hb as <-. exists o. auto.
      + destruct (H k y b Hy Hb) as (o' & Ho & Hr). exists o'. auto.
  Qed.
End Conf.

Lemma scatter_all v : forall ids k all, NoDup ids -> ids_ok ids all -> (forall j, (j < length ids)%nat -> dv_get v (k + j) <> None) ->
  exists all', scatter ids v k all = Ok all' /\ length all' = length all /\
    (forall j z, nth_error ids j = Some z -> nth_error all' (Z.to_nat z) = Some (dv_get v (k + j))) /\
    (forall i, ~ In (Z.of_nat i) ids -> nth_error all' i = nth_error all i).
Proof.
  induction ids as [|z r IH]; intros k all Nd Ok1 Hv.
  - exists all. repeat split; auto. intros [|j]; discriminate.
  - cbn [scatter]. pose proof (Ok1 z (or_introl eq_refl)) as Bz.
    pose proof (Hv 0%nat ltac:(cbn; lia)) as V0. rewrite Nat.add_0_r in V0.
    destruct (dv_get v k) as [x|] eqn:Vk; [|congruence]. cbn [from bind].
    destruct (Z.ltb_spec z 0); [lia|]. destruct (Nat.ltb_spec (Z.to_nat z) (length all)); [|lia]. cbn [negb orb].
    inversion Nd as [|? ? Nz Nd']; subst.
    destruct (IH (S k) (set_at all (Z.to_nat z) (Some x))) as (all' & E & L & H1 & H2); auto.
    + intros y Hy. rewrite set_at_len. apply Ok1. now right.
    + intros j Hj. replace (S k + j)%nat with (k + S j)%nat by lia. apply Hv. cbn. lia.
    + exists all'. split; auto. rewrite set_at_len in L. split; auto. split.
      * intros [|j] y Hy; cbn in Hy.
        -- injection Hy as <-. rewrite Nat.add_0_r, Vk. rewrite H2, nth_set_at, Nat.eqb_refl.
           ++ destruct (Nat.ltb_spec (Z.to_nat z) (length all)); [auto|lia].
           ++ rewrite Z2Nat.id by lia. exact Nz.
        -- replace (k + S j)%nat with (S k + j)%nat by lia. auto.
      * intros i Hi. rewrite H2, nth_set_at.
        -- destruct (Nat.eqb_spec (Z.to_nat z) i) as [<-|]; auto. exfalso. apply Hi. left. lia.
        -- intros K. apply Hi. now right.
Qed.
Lemma gather_ok v n : forall ids, (forall z, In z ids -> 0 <= z < Z.of_nat n) -> (forall i, (i < n)%nat -> dv_get v i <> None) ->
  exists sub, gather ids v = Ok sub /\ length sub = length ids /\
    forall k z, nth_error ids k = Some z -> nth_error sub k = dv_get v (Z.to_nat z).
Proof.
  induction ids as [|z r IH]; intros B Hv.
  - exists []. repeat split. intros [|k]; discriminate.
  - pose proof (B z (or_introl eq_refl)) as Bz. cbn [gather]. destruct (Z.ltb_spec z 0); [lia|].
    destruct (dv_get v (Z.to_nat z)) as [x|] eqn:N; [|exfalso; apply (Hv (Z.to_nat z)); [lia|auto]]. cbn [from bind].
    destruct IH as (sub & -> & L & H1); auto; [intros y Hy; apply B; now right|]. cbn [bind].
    exists (x :: sub). split; auto. split; [cbn; lia|]. intros [|k] y Hy; cbn in Hy; [injection Hy as <-; now rewrite N|cbn; auto].
Qed.

(** the configuration ids of a chain are valid, and distinct when its joints use distinct variables *)
Lemma c53_chain_ids h s root tip rz tz ls junk ss n : ready h s -> forest (declared h) -> config_count s = Ok n ->
  id_of s root rz -> id_of s tip tz -> between (declared h) root tip ls -> chain_create s rz tz junk = Ok ss ->
  (forall z, In z (ss_configs ss) -> 0 <= z < Z.of_nat n) /\
  (NoDup (map d_cfg (joint_decls (declared h) ls)) -> NoDup (ss_configs ss)).
Proof.
  intros Rd Fo Cn Zr Zt B Cc. destruct (c50_chain h s root tip rz tz ls junk Rd Fo Zr Zt B) as (zs & cs & E & _ & H2).
  rewrite E in Cc. injection Cc as <-. cbn [ss_configs].
  destruct (ready_inv _ _ Rd) as [I [l X]]. destruct (ready_count _ _ _ X Cn) as [_ Lc].
  clear E. induction H2 as [|d c ds cs [Hc Pc] H IH]; [split; [intros z []|constructor]|].
  destruct IH as [B1 N1]. assert (Hc' : config_id s (d_cfg d) = Ok (Z.of_nat (Z.to_nat c))) by (now rewrite Z2Nat.id).
  apply (config_id_inv _ _ _ _ X) in Hc'.
  split.
  - intros z [<-|Hz]; auto. assert (Z.to_nat c < length (s_crmap s))%nat by (apply nth_error_Some; congruence). lia.
  - cbn [map]. intros Nd. inversion Nd as [|? ? Nin Nd']; subst. constructor; auto.
    intros Hin. apply Nin. clear -H Hin Hc' X. induction H as [|d' c' ds cs [Hd Pd] H IH]; [destruct Hin|].
    destruct Hin as [->|Hin]; [|right; auto]. left. rewrite <- (Z2Nat.id c Pd) in Hd. apply (config_id_inv _ _ _ _ X) in Hd. congruence.
Qed.
