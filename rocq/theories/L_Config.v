(** Wide fluxes on reconstructed values, and the names of the configuration. *)
From Coq Require Import ZArith List Bool Reals String Ascii Lia Lra.
From Verif Require Import M_Base M_Vec M_Boundary M_Flux M_Combined M_Scalar M_Euler M_Recon M_Config.
From Verif Require Import S_Boundary S_Flux S_Sum S_Config L_Base L_Loops L_Boundary L_Flux L_System L_Sum L_Conserve L_FluxTop.
Import ListNotations.
Open Scope Z_scope.

(** ** The array `left` of a flux computation *)
Section Wide.
Context {V : cvars}.
Variables (dims g : Z) (st : list Z) (f : Z -> list V -> V * R) (rc : recon V) (nx ny nz : Z).
Hypothesis Hd : 1 <= dims <= 3.
Hypothesis Hr : 1 <= rec_ghosts rc <= g.
Hypothesis Hst : forall s, In s st -> - (g - 1) <= s <= g.
Hypothesis Hx : 0 < nx.
Hypothesis Hy : 0 < ny.
Hypothesis Hz : 0 < nz.

Let fx := FluxN st f.
Lemma none_comp : compatible fx no_reconstruction g.
Proof. split; [cbn; lia|]. cbn. intros s Hs. specialize (Hst s Hs). lia. Qed.

Definition margin (d k : Z) : Z :=
  if k =? d then rec_ghosts rc - 1 else if rec_all rc then 0 else if k <? dims then rec_ghosts rc else 0.
Lemma reconstructed_inreg n d c : reconstructed dims (rec_ghosts rc) (rec_all rc) n d c =
  inreg (margin d) (fun k => n k - margin d k) c.
Proof.
  apply eq_true_iff_eq. unfold reconstructed. rewrite forallb_forall, inreg_iff.
  split.
  - intros H k Hk. specialize (H k ltac:(unfold dir in Hk; cbn; lia)). cbv zeta in H.
    apply andb_true_iff in H. rewrite Z.leb_le, Z.ltb_lt in H. exact H.
  - intros H k Hk. specialize (H k ltac:(unfold dir; cbn in Hk; lia)). cbv zeta.
    apply andb_true_iff. rewrite Z.leb_le, Z.ltb_lt. exact H.
Qed.

Lemma reconstruct_exact d (u left right : vol V) :
  0 <= d < dims -> ext dims g nx ny nz u -> same_dims u left -> same_dims u right ->
  exists left' right', reconstruct dims rc d u left right (fun _ => 0) (fun _ => 0) = Ok (left', right') /\
    same_dims u left' /\ same_dims u right' /\
    (forall c, inr u c -> vget left' c =
       if reconstructed dims (rec_ghosts rc) (rec_all rc) (total u) d c then fst (rec_at rc d (vget u) c) else vget left c).
Proof.
  intros Hdd Eu Dl Dr. unfold reconstruct. set (r := rec_ghosts rc) in *.
  set (lo' := fun k => if rec_all rc then unit_ d k * (r - 1) else ghost dims r k - unit_ d k + 0).
  set (hi' := fun k => if rec_all rc then total u k - unit_ d k * (r - 1) else total u k - (ghost dims r k - unit_ d k) + 0).
  assert (Dd : dir d) by (unfold dir; lia).
  assert (Hk : forall k, dir k -> lo' k = margin d k /\ hi' k = total u k - margin d k).
  { intros k Hk. unfold lo', hi', margin, unit_, ghost. fold r. rewrite (Z.eqb_sym d k).
    destruct (Z.eqb_spec k d) as [->|]; cbn [b2z]; destruct (rec_all rc); try lia;
    destruct (Z.ltb_spec d dims); try lia; destruct (Z.ltb_spec k dims); lia. }
  assert (Hm : forall k, 0 <= margin d k).
  { intros k. unfold margin. destruct (k =? d); [lia|]. destruct (rec_all rc); [lia|]. destruct (k <? dims); lia. }
  match goal with |- exists q1 q2, for3 _ _ _ _ _ _ ?B _ = _ /\ _ =>
    destruct (for3_write2 (lo' 2) (hi' 2) (lo' 1) (hi' 1) (lo' 0) (hi' 0) B
      (fun c => fst (rec_at rc d (vget u) c)) (fun c => snd (rec_at rc d (vget u) c)) left right)
      as (l' & r' & E & D1 & D2 & W1 & W2) end.
  - eapply same_dims_trans; [apply same_dims_sym; exact Dl|exact Dr].
  - intros c Hc. eapply inr_same; [exact Dl|]. apply inr_iff. intros k Hk'.
    apply (proj1 (inreg_iff lo' hi' c)) with (k := k) in Hc; auto.
    destruct (Hk k Hk') as [K1 K2]. rewrite K1, K2 in Hc. specialize (Hm k). lia.
  - intros x y z v' w' Hc.
    rewrite (map_res_ok _ (fun j => vget u (move d j (x, y, z)))).
    + reflexivity.
    + intros j Hj. apply zrange_In in Hj. apply vload_move; [exact Dd|].
      apply inr_iff. intros k Hk'. rewrite coord_move by auto.
      apply (proj1 (inreg_iff lo' hi' _)) with (k := k) in Hc; auto.
      destruct (Hk k Hk') as [K1 K2]. rewrite K1, K2 in Hc. specialize (Hm k). unfold margin in Hc, Hm.
      destruct (k =? d) eqn:Ekd; lia.
  - exists l', r'. split; [exact E|]. split; [sd|]. split; [sd|].
    intros c Hc. rewrite W1 by (eapply inr_same; [|eassumption]; sd).
    replace (inbox _ _ _ _ _ _ c) with (reconstructed dims r (rec_all rc) (total u) d c); [reflexivity|].
    unfold r. rewrite reconstructed_inreg. apply eq_true_iff_eq.
    change (inbox (lo' 2) (hi' 2) (lo' 1) (hi' 1) (lo' 0) (hi' 0) c) with (inreg lo' hi' c).
    rewrite !inreg_iff. split; intros H k Hk'; specialize (H k Hk'); destruct (Hk k Hk') as [K1 K2]; lia.
Qed.

Let field (u left : vol V) (d : Z) : cell -> V := seen dims rc (total u) (vget u) (vget left) (Z.to_nat d).

(** The computed right hand side and wave speed are those of the flux without
    reconstruction, on that array; the array is left behind. *)
Theorem wide_flux (u : vol V) (s : fstate V) :
  ext dims g nx ny nz u -> ext_state dims g nx ny nz s ->
  exists s', compute_flux dims g fx rc u (fun _ => 0) (fun _ => 0) s = Ok s' /\ ext_state dims g nx ny nz s' /\
    (forall c, interior dims g nx ny nz c ->
       vget (f_out s') c = rhs_of dims fx (field u (f_left s)) c) /\
    (forall d, 0 <= d < dims -> forall w, w d = f_speed s' d ->
       let faces c := interior dims g nx ny nz c \/ interior dims g nx ny nz (move d 1 c) in
       let speed c := snd (iface fx no_reconstruction d (field u (f_left s) d) c) in
       (0 <= w d)%R /\ (forall c, faces c -> (speed c <= w d)%R) /\
       (w d = 0%R \/ exists c, faces c /\ w d = speed c)) /\
    (forall c, in_volume dims g nx ny nz c -> vget (f_left s') c = field u (f_left s) (dims - 1) c).
Proof.
  intros Hu Hs.
  assert (Dst : st_dims u s) by (apply st_dims_ext with dims g nx ny nz; auto).
  destruct Dst as (Dl & Dr & Dt & Do).
  unfold compute_flux.
  destruct (make_zero_spec dims g fx no_reconstruction none_comp u (f_out s) (fun _ => 0) (fun _ => 0)
     (int_lo dims g) (int_hi dims g u)) as (o0 & E0 & F0 & W0); auto.
  { intros. unfold int_lo. lia. }
  { intros. unfold int_hi. lia. }
  { intros k Hk. unfold int_lo, int_hi. lia. }
  rewrite E0. cbn [bind].
  assert (Hi : forall c, interior dims g nx ny nz c <-> inreg (int_lo dims g) (int_hi dims g u) c = true)
    by (intros c; symmetry; apply int_inreg; auto).
  assert (Hin : forall c, interior dims g nx ny nz c -> inr u c).
  { intros c Hc. apply Hi in Hc. exact (interior_inr dims g fx no_reconstruction none_comp u c Hc). }
  match goal with |- exists q, for_ _ _ ?B ?s0 = _ /\ _ =>
    destruct (for_inv (fun j (s1 : fstate V) =>
       st_dims u s1 /\
       (forall c, inr u c -> vget (f_left s1) c = if j =? 0 then vget (f_left s) c else field u (f_left s) (j - 1) c) /\
       (forall c, interior dims g nx ny nz c -> vget (f_out s1) c =
          fold_left (fun a d => vadd a (vadd (fst (iface fx no_reconstruction d (field u (f_left s) d) (move d (-1) c)))
                   (vscal (-1) (fst (iface fx no_reconstruction d (field u (f_left s) d) c))))) (zrange 0 j) vzero) /\
       (forall d, 0 <= d < j -> forall w, w d = f_speed s1 d ->
         let faces c := interior dims g nx ny nz c \/ interior dims g nx ny nz (move d 1 c) in
         let speed c := snd (iface fx no_reconstruction d (field u (f_left s) d) c) in
         (0 <= w d)%R /\ (forall c, faces c -> (speed c <= w d)%R) /\
         (w d = 0%R \/ exists c, faces c /\ w d = speed c)))
      0 dims B s0) as (s' & Es & Ds & Ls & Os & Ws) end.
  - lia.
  - cbn [f_left f_right f_out f_temp f_speed]. split; [|split; [|split]].
    + unfold st_dims. cbn [f_left f_right f_out f_temp]. split; [|split; [|split]]; sd.
    + reflexivity.
    + intros c Hc. rewrite W0 by auto. apply Hi in Hc. rewrite Hc. reflexivity.
    + intros d Hd'. lia.
  - intros d s1 Hdd ((Dl1 & Dr1 & Dt1 & Do1) & L1 & O1 & S1).
    assert (Dd : dir d) by (unfold dir; lia).
    destruct (reconstruct_exact d u (f_left s1) (f_right s1) Hdd Hu Dl1 Dr1) as (l' & r' & E & Fl & Fr & W).
    assert (Hl : ext dims g nx ny nz l') by (apply (ext_same dims g nx ny nz u l' Hu); exact Fl).
    rewrite E. cbn [bind fst snd].
    destruct (net_flux_spec dims g fx no_reconstruction none_comp d l' l' l' (f_out s1) (f_temp s1) (fun _ => 0) (fun _ => 0)
       (int_lo dims g) (int_hi dims g l')) as (o1 & t1 & E1 & F1 & F2 & W1); auto; try lia; try sd.
    { intros. unfold int_lo. lia. }
    { intros. unfold int_hi. lia. }
    { intros k Hk. unfold int_lo, int_hi. lia. }
    { intros c _. unfold rec_at, no_reconstruction. cbn [rec_ghosts rec_fun].
      change (zrange (- (1 - 1)) 1) with [0]. cbn [map fst snd]. rewrite move_0. auto. }
    { intros c _. unfold rec_at, no_reconstruction. cbn [rec_ghosts rec_fun].
      change (zrange (- (1 - 1)) 1) with [0]. cbn [map fst snd]. rewrite move_0. auto. }
    change (net_flux dims g fx d l' r' (f_out s1) (f_temp s1) (fun _ => 0) (fun _ => 0))
      with (net_flux dims g fx d l' l' (f_out s1) (f_temp s1) (fun _ => 0) (fun _ => 0)).
    rewrite E1. cbn [bind fst snd]. eexists. split; [reflexivity|]. cbn [f_left f_right f_out f_temp f_speed].
    assert (Lf : forall c, inr u c -> vget l' c = field u (f_left s) d c).
    { intros c Hc. rewrite W by exact Hc. unfold field. destruct (Z.eq_dec d 0) as [->|Hn].
      - cbn. rewrite L1 by exact Hc. reflexivity.
      - replace (Z.to_nat d) with (S (Z.to_nat (d - 1))) by lia. cbn [seen].
        replace (Z.of_nat (S (Z.to_nat (d - 1)))) with d by lia.
        rewrite L1 by exact Hc. destruct (Z.eqb_spec d 0); [lia|]. reflexivity. }
    assert (Near : forall c j, interior dims g nx ny nz c \/ interior dims g nx ny nz (move d 1 c) ->
       - (g - 1) <= j <= g -> vget l' (move d j c) = field u (f_left s) d (move d j c)).
    { intros c j Hc Hj. apply Lf. apply inr_iff. intros k Hk. rewrite coord_move by auto.
      assert (T : total u d = nvec nx ny nz d + 2 * g).
      { rewrite (total_extents u dims g nx ny nz d) by (auto; lia). unfold ghost. destruct (Z.ltb_spec d dims); lia. }
      assert (G : 0 <= ghost dims g k) by (unfold ghost; destruct (_ <? _); lia).
      assert (Gd : ghost dims g d = g) by (unfold ghost; destruct (Z.ltb_spec d dims); lia).
      destruct Hc as [Hc|Hc]; apply Hi in Hc; apply (proj1 (inreg_iff _ _ _)) with (k := k) in Hc; auto;
        try rewrite coord_move in Hc by auto; unfold int_lo, int_hi in Hc;
        (destruct (k =? d) eqn:Ekd; [apply Z.eqb_eq in Ekd; subst k|]; lia). }
    split; [|split; [|split]].
    + unfold st_dims. cbn [f_left f_right f_out f_temp]. split; [|split; [|split]]; sd.
    + intros c Hc. destruct (Z.eqb_spec (d + 1) 0); [lia|]. replace (d + 1 - 1) with d by lia. now apply Lf.
    + intros c Hc. rewrite zrange_snoc, fold_left_app by lia. cbn [fold_left]. rewrite <- O1 by exact Hc.
      rewrite W1 by (eapply inr_same; [|apply Hin; exact Hc]; sd).
      replace (inreg (int_lo dims g) (int_hi dims g l') c) with true.
      2:{ symmetry. apply (int_inreg dims g nx ny nz ltac:(lia) l' c Hl). exact Hc. }
      f_equal. unfold contrib.
      rewrite (iface_ext g fx no_reconstruction none_comp d (vget l') (field u (f_left s) d) c c).
      2:{ intros j Hj. apply Near; auto. }
      rewrite (iface_ext g fx no_reconstruction none_comp d (vget l') (field u (f_left s) d) (move d (-1) c) (move d (-1) c)).
      2:{ intros j Hj. apply Near; auto. right. rewrite move_move. change (-1 + 1) with 0. now rewrite move_0. }
      reflexivity.
    + intros e He w Hw. destruct (Z.eqb_spec e d) as [->|Hn]; [|apply S1; auto; lia].
      rewrite Hw.
      set (faces := fun c => interior dims g nx ny nz c \/ interior dims g nx ny nz (move d 1 c)).
      set (speed := fun c => snd (iface fx no_reconstruction d (field u (f_left s) d) c)).
      assert (B : is_wave_speed dims g nx ny nz fx no_reconstruction (vget l')
         (fun k => max_speed fx no_reconstruction (int_lo dims g) (int_hi dims g l') k (vget l'))).
      { apply (bound_is dims g fx no_reconstruction nx ny nz); auto; try lia. intros e He'. apply max_speed_spec. }
      specialize (B d ltac:(lia)). cbv zeta in B. destruct B as (B1 & B2 & B3). split; [exact B1|].
      assert (Eq : forall c, faces c -> iface fx no_reconstruction d (vget l') c = iface fx no_reconstruction d (field u (f_left s) d) c).
      { intros c Hc. apply (iface_ext g fx no_reconstruction none_comp). intros j Hj. apply Near; auto. }
      split.
      * intros c Hc. unfold speed. rewrite <- Eq by exact Hc. apply B2. exact Hc.
      * destruct B3 as [B3|(c & Hc & B3)]; [now left|]. right. exists c. split; [exact Hc|]. unfold speed. rewrite <- Eq by exact Hc. exact B3.
  - exists s'. split; [exact Es|]. split; [apply (st_dims_ext dims g nx ny nz u); auto|]. split; [exact Os|]. split; [exact Ws|].
    intros c Hc. rewrite Ls by (apply (in_volume_iff u dims g nx ny nz); auto; lia).
    destruct (Z.eqb_spec dims 0); [lia|]. reflexivity.
Qed.
End Wide.

(** ** Names *)
Open Scope string_scope.

Lemma lower_char_in c d : In (d, c) letters -> lower_char d = c.
Proof.
  intros H. unfold letters in H. cbn [In] in H.
  repeat (destruct H as [H|H]; [inversion H; subst; reflexivity|]). destruct H.
Qed.
Lemma lower_char_out d : lower_char d = d \/ In (d, lower_char d) letters.
Proof.
  destruct d as [[] [] [] [] [] [] [] []];
    first [left; reflexivity | right; vm_compute; tauto].
Qed.
Fixpoint all_lower (s : string) : bool :=
  match s with EmptyString => true
  | String c s => negb (existsb (Ascii.eqb c) (map fst letters)) && all_lower s end.

(** A word in lower case is what [to_lower] makes of the words that differ from it
    in the case of letters only. *)
Lemma to_lower_spec f s : all_lower f = true -> (to_lower s = f <-> same_but_case f s).
Proof.
  revert s; induction f as [|c f IH]; intros s Hl.
  - split; intros H.
    + destruct s; [constructor|discriminate].
    + inversion H. reflexivity.
  - cbn [all_lower] in Hl. apply andb_true_iff in Hl. destruct Hl as [Hc Hl]. split; intros H.
    + destruct s as [|d s]; [discriminate|]. cbn in H. injection H as E1 E2.
      destruct (lower_char_out d) as [Hd|Hd].
      * rewrite E1 in Hd. subst d. constructor. now apply IH.
      * rewrite E1 in Hd. apply Same_upper; [exact Hd|]. now apply IH.
    + inversion H as [|c' f' t Ht|c' d f' t Hin Ht]; subst; cbn; f_equal; try (now apply IH).
      * destruct (lower_char_out c) as [E|E]; [exact E|]. exfalso.
        apply negb_true_iff in Hc. rewrite <- Bool.not_true_iff_false in Hc. apply Hc.
        apply existsb_exists. exists c. split; [|apply Ascii.eqb_refl].
        change c with (fst (c, lower_char c)). now apply in_map.
      * now apply lower_char_in.
Qed.

Lemma is_space_white c : is_space c = true <-> In c white.
Proof.
  split.
  - destruct c as [[] [] [] [] [] [] [] []]; vm_compute; intros H; try discriminate; tauto.
  - intros H. unfold white in H. cbn [In] in H.
    repeat (destruct H as [H|H]; [subst; reflexivity|]). destruct H.
Qed.

Fixpoint no_space (s : string) : bool :=
  match s with EmptyString => true | String c s => negb (is_space c) && no_space s end.
Lemma trim_left_blank a s : blank a -> trim_left (a ++ s) = trim_left s.
Proof.
  induction a as [|c a IH]; cbn; auto. intros [Hc Ha]. apply is_space_white in Hc. rewrite Hc. auto.
Qed.
Lemma trim_right_blank b : blank b -> trim_right b = "".
Proof.
  induction b as [|c b IH]; cbn; auto. intros [Hc Hb]. rewrite (IH Hb).
  apply is_space_white in Hc. now rewrite Hc.
Qed.
Lemma trim_right_word w b : no_space w = true -> blank b -> trim_right (w ++ b) = w.
Proof.
  induction w as [|c w IH]; cbn; intros Hw Hb; [now apply trim_right_blank|].
  apply andb_true_iff in Hw. destruct Hw as [Hc Hw]. rewrite (IH Hw Hb).
  apply negb_true_iff in Hc. rewrite Hc. now destruct w.
Qed.
Lemma trim_left_split s : exists a, s = a ++ trim_left s /\ blank a.
Proof.
  induction s as [|c s IH]; cbn; [now exists ""|].
  destruct (is_space c) eqn:E.
  - destruct IH as (a & Ea & Ha). exists (String c a). cbn. rewrite <- Ea. repeat split; auto. now apply is_space_white.
  - now exists "".
Qed.
Lemma trim_right_split s : exists b, s = trim_right s ++ b /\ blank b.
Proof.
  induction s as [|c s IH]; cbn; [now exists ""|].
  destruct IH as (b & Eb & Hb). destruct (trim_right s) as [|d t] eqn:Et.
  - cbn in Eb. subst b. destruct (is_space c) eqn:E.
    + exists (String c s). cbn. repeat split; auto. now apply is_space_white.
    + exists s. split; auto.
  - exists b. split; [|exact Hb]. cbn in Eb |- *. now rewrite <- Eb.
Qed.
(** A word without white space is what [trim] leaves of the words padded with white
    space. *)
Lemma trim_spec w s : w <> "" -> no_space w = true -> (trim s = w <-> padded s w).
Proof.
  intros Hn Hw. split.
  - intros <-. destruct (trim_left_split s) as (a & Ea & Ha).
    destruct (trim_right_split (trim_left s)) as (b & Eb & Hb).
    exists a, b. split; [|auto]. unfold trim. rewrite <- Eb. exact Ea.
  - intros (a & b & -> & Ha & Hb). unfold trim. rewrite trim_left_blank by exact Ha.
    destruct w as [|c w]; [congruence|]. cbn [append trim_left].
    pose proof Hw as Hw'. cbn in Hw'. apply andb_true_iff in Hw'. destruct Hw' as [Hc _].
    apply negb_true_iff in Hc. rewrite Hc.
    change (trim_right (String c w ++ b) = String c w). now apply trim_right_word.
Qed.

(** ** What the factories find *)
Lemma last_match_eqs e : last_match e equations =
  if String.eqb e "euler1" then Some (Euler 1) else if String.eqb e "euler2" then Some (Euler 2)
  else if String.eqb e "euler3" then Some (Euler 3) else if String.eqb e "burgers" then Some (Scalar Burgers)
  else if String.eqb e "buckleyleverett" then Some (Scalar BuckleyLeverett)
  else if String.eqb e "cubic" then Some (Scalar Cubic)
  else if String.eqb e "linear" then Some (Scalar Linear) else None.
Proof.
  unfold last_match, equations. cbn [fold_left fst snd].
  rewrite !(String.eqb_sym _ e).
  repeat match goal with |- context [String.eqb e ?n] =>
    destruct (String.eqb_spec e n); [subst; reflexivity|] end. reflexivity.
Qed.

(** The offered names are in lower case, and they are found. *)
Lemma find_flux_some eq e gamma name : last_match eq equations = Some e ->
  (exists fx, find_flux e gamma name = Some fx) <-> In (to_lower name) (flux_names eq).
Proof.
  rewrite last_match_eqs. intros H. set (w := to_lower name).
  assert (Go : forall (A B : Type) (h : A -> B) (l : list (string * A)),
     (exists fx, option_map h (last_match w l) = Some fx) <-> In w (map fst l)).
  { intros A B h l. assert (G : forall acc, (exists fx, option_map h (fold_left (fun acc p => if String.eqb (fst p) w then Some (snd p) else acc) l acc) = Some fx)
       <-> In w (map fst l) \/ exists a, acc = Some a).
    { induction l as [|[n a] l IH]; intros acc; cbn [fold_left map In fst snd].
      - split.
        + intros [fx Hf]. right. destruct acc as [a|]; [now exists a|discriminate].
        + intros [[]|[a ->]]. now exists (h a).
      - rewrite IH. destruct (String.eqb_spec n w).
        + split; [intros _; left; now left|]. intros _. right. now exists a.
        + split; [intros [K|K]; [left; now right|now right]|]. intros [[K|K]|K]; [congruence|now left|now right]. }
    unfold last_match. rewrite G. split; [|now left]. intros [K|[a K]]; [exact K|discriminate]. }
  repeat match type of H with context [String.eqb eq ?n] =>
    destruct (String.eqb_spec eq n); [subst; injection H as <-; cbn [find_flux]; fold w; rewrite Go; reflexivity|] end.
  discriminate.
Qed.

Lemma find_recon_some eq e gamma name : last_match eq equations = Some e ->
  (exists rc, find_recon e gamma name = Some rc) <-> In name (recon_names eq).
Proof.
  rewrite last_match_eqs. intros H.
  assert (Go : (exists rc, find_recon e gamma name = Some rc) <->
     In name (["none"; "eno2"; "eno3"; "eno4"; "weno2"; "weno3"; "mc"; "mm"] ++
        (match e with Euler _ => ["wenof2"] | Scalar _ => [] end))).
  { unfold find_recon.
    do 9 (match goal with |- context [String.eqb name ?n] =>
      destruct (String.eqb_spec name n);
        [subst name; destruct e; cbn [app In]; (split;
          [intros K; first [solve [repeat first [left; reflexivity | right]] | destruct K; discriminate]
          |intros K; try (eexists; reflexivity); exfalso; repeat (destruct K as [K|K]; [discriminate|]); exact K])|] end).
    split; [intros [? K]; discriminate|]. intros K. exfalso.
    destruct e; cbn [app In] in K; repeat (destruct K as [K|K]; [congruence|]); exact K. }
  rewrite Go.
  repeat match type of H with context [String.eqb eq ?n] =>
    destruct (String.eqb_spec eq n); [subst; injection H as <-; reflexivity|] end.
  discriminate.
Qed.

Definition points_list (n : Z) : list Z :=
  (if n =? 6 then [-2; -1; 0; 1; 2; 3] else if n =? 4 then [-1; 0; 1; 2] else [0; 1])%Z.
Lemma find_flux_shape e gamma name fx : find_flux e gamma name = Some fx ->
  (flux_points (to_lower name) = 2%Z /\ (exists f, fx = Flux2 f)) \/
  ((flux_points (to_lower name) = 4%Z \/ flux_points (to_lower name) = 6%Z) /\
   exists f, fx = FluxN (points_list (flux_points (to_lower name))) f).
Proof.
  set (w := to_lower name). destruct e as [e|n]; cbn [find_flux]; fold w; intros H.
  - destruct e; unfold last_match, scalar_fluxes in H; cbn [fold_left fst snd] in H;
    repeat match type of H with context [String.eqb ?n w] =>
      destruct (String.eqb_spec n w); [rewrite <- e in *; cbn [String.eqb Ascii.eqb Bool.eqb] in H; cbn [option_map] in H;
        injection H as <-; first [left; split; [reflexivity|eexists; reflexivity]
          | right; split; [first [left; reflexivity|right; reflexivity]|eexists; reflexivity]] |] end;
    discriminate.
  - unfold last_match, euler_fluxes in H; cbn [fold_left fst snd] in H;
    repeat match type of H with context [String.eqb ?n w] =>
      destruct (String.eqb_spec n w); [rewrite <- e in *; cbn [String.eqb Ascii.eqb Bool.eqb] in H; cbn [option_map] in H;
        injection H as <-; first [left; split; [reflexivity|eexists; reflexivity]
          | right; split; [first [left; reflexivity|right; reflexivity]|eexists; reflexivity]] |] end;
    discriminate.
Qed.
Lemma find_recon_reach e gamma name rc : find_recon e gamma name = Some rc ->
  rec_ghosts rc = recon_reach name.
Proof.
  unfold find_recon. intros H.
  repeat match type of H with context [String.eqb name ?n] =>
    destruct (String.eqb_spec name n);
      [subst; try (destruct e; [try discriminate|]); try discriminate; injection H as <-; reflexivity|] end.
  discriminate.
Qed.

(** ** The scheme *)
Lemma create_scheme_iff gamma eq fl rcn s : create_scheme gamma eq fl rcn = Ok s <->
  exists e fx rc, last_match eq equations = Some e /\ find_flux e gamma fl = Some fx /\
    find_recon e gamma (trim rcn) = Some rc /\ s = mkscheme (record_type e) fx rc.
Proof.
  unfold create_scheme. split.
  - destruct (last_match eq equations) as [e|] eqn:E; [|discriminate].
    destruct (find_recon e gamma (trim rcn)) as [rc|] eqn:Er; [|discriminate].
    destruct (find_flux e gamma fl) as [fx|] eqn:Ef; [|discriminate].
    intros H. injection H as <-. exists e, fx, rc. auto.
  - intros (e & fx & rc & -> & -> & -> & ->). reflexivity.
Qed.
Lemma points_In n s : (n = 4 \/ n = 6)%Z -> In s (points_list n) <-> (- (n / 2 - 1) <= s <= n / 2)%Z.
Proof.
  intros [-> | ->]; unfold points_list; cbn [Z.eqb Pos.eqb In].
  - change (4 / 2)%Z with 2%Z. lia.
  - change (6 / 2)%Z with 3%Z. lia.
Qed.
Lemma recon_reach_range r : (1 <= recon_reach r <= 4)%Z.
Proof.
  unfold recon_reach. destruct (String.eqb r "none"), (existsb (String.eqb r) ["eno3"; "weno3"]), (String.eqb r "eno4"); lia.
Qed.

Lemma scheme_shape gamma eq fl rcn s : create_scheme gamma eq fl rcn = Ok s ->
  let p := flux_points (to_lower fl) in let r := recon_reach (trim rcn) in
  rec_ghosts (sc_recon s) = r /\
  ((p = 2%Z /\ exists f, sc_flux s = Flux2 f) \/
   ((p = 4 \/ p = 6)%Z /\ exists f, sc_flux s = FluxN (points_list p) f)).
Proof.
  intros H. apply create_scheme_iff in H. destruct H as (e & fx & rc & _ & Hf & Hr & ->).
  cbn [sc_flux sc_recon sc_vars]. split; [now apply find_recon_reach in Hr|].
  now apply find_flux_shape in Hf.
Qed.
Lemma scheme_ghosts_names gamma eq fl rcn s : create_scheme gamma eq fl rcn = Ok s ->
  scheme_ghosts s = Z.max (flux_points (to_lower fl) - 1) (recon_reach (trim rcn)).
Proof.
  intros H. apply scheme_shape in H. cbv zeta in H. destruct H as [Hr Hf]. unfold scheme_ghosts. rewrite Hr.
  destruct Hf as [[-> [f ->]] | [P [f ->]]]; [reflexivity|]. f_equal. cbn [stencil].
  destruct P as [-> | ->]; reflexivity.
Qed.
Lemma scheme_compatible gamma eq fl rcn s : create_scheme gamma eq fl rcn = Ok s ->
  (compatible (sc_flux s) (sc_recon s) (scheme_ghosts s) <-> unsuited (to_lower fl) (trim rcn) = false).
Proof.
  intros H. rewrite (scheme_ghosts_names _ _ _ _ _ H). apply scheme_shape in H. cbv zeta in H.
  destruct H as [Hr Hf]. unfold compatible, unsuited. rewrite Hr. pose proof (recon_reach_range (trim rcn)) as Rr.
  destruct Hf as [[-> [f ->]] | [P [f ->]]].
  - split; [reflexivity|]. intros _. split; [lia|exact I].
  - rewrite andb_false_iff, !Z.ltb_ge. split.
    + intros [_ K]. right. specialize (K (flux_points (to_lower fl) / 2)%Z).
      rewrite points_In in K by exact P. destruct P as [P | P]; rewrite P in *;
      [change (4 / 2)%Z with 2%Z in *|change (6 / 2)%Z with 3%Z in *]; lia.
    + intros K. split; [lia|]. intros z Hz. rewrite points_In in Hz by exact P.
      destruct P as [P | P]; rewrite P in *;
      [change (4 / 2)%Z with 2%Z in *|change (6 / 2)%Z with 3%Z in *]; lia.
Qed.
