(** Lemmas about the flux computation during the exchange. *)
From Coq Require Import ZArith Reals List Bool Lia Lra.
From Verif Require Import M_Base M_Vec M_Boundary M_Flux M_Race S_Boundary S_Flux S_Race L_Base L_Loops
  L_Boundary L_Flux L_System L_Sum L_Conserve L_FluxTop.
Import ListNotations.
Open Scope Z_scope.

Lemma map_res_ext {A B} (f h : A -> res B) l :
  (forall a, In a l -> f a = h a) -> map_res f l = map_res h l.
Proof.
  induction l as [|a l IH]; intros H; [reflexivity|]. cbn [map_res].
  rewrite H by now left. rewrite IH; [reflexivity|]. intros. apply H. now right.
Qed.

Lemma for3_ext {S} zlo zhi ylo yhi xlo xhi (f h : Z -> Z -> Z -> S -> res S) s :
  (forall x y z s, inbox zlo zhi ylo yhi xlo xhi (x, y, z) = true -> f x y z s = h x y z s) ->
  for3 zlo zhi ylo yhi xlo xhi f s = for3 zlo zhi ylo yhi xlo xhi h s.
Proof.
  intros H. rewrite !for3_box. apply fold_res_ext. intros [[x y] z] s' Hc. apply H.
  now apply inbox_In.
Qed.

Lemma for_ext {S} lo hi (f h : Z -> S -> res S) s :
  (forall i s, lo <= i < hi -> f i s = h i s) -> for_ lo hi f s = for_ lo hi h s.
Proof. intros H. apply fold_res_ext. intros i s' Hi. apply H. now apply zrange_In. Qed.

(** Two runs of a loop side by side. *)
Lemma for_rel {S} (P : S -> S -> Prop) lo hi (f h : Z -> S -> res S) s t :
  P s t ->
  (forall i s t, lo <= i < hi -> P s t ->
     exists s' t', f i s = Ok s' /\ h i t = Ok t' /\ P s' t') ->
  exists s' t', for_ lo hi f s = Ok s' /\ for_ lo hi h t = Ok t' /\ P s' t'.
Proof.
  intros H0 Hs. unfold for_.
  assert (G : forall l s t, (forall i, In i l -> lo <= i < hi) -> P s t ->
    exists s' t', fold_res f l s = Ok s' /\ fold_res h l t = Ok t' /\ P s' t').
  { induction l as [|i l IH]; intros s1 t1 Hl H1.
    - exists s1, t1. auto.
    - destruct (Hs i s1 t1) as (s2 & t2 & E1 & E2 & H2); [apply Hl; now left|exact H1|].
      cbn [fold_res]. rewrite E1, E2. cbn [bind]. apply IH; auto. intros. apply Hl. now right. }
  apply G; auto. intros i Hi. now apply zrange_In.
Qed.

(** A loop with a body that is undefined at one index is undefined. *)
Lemma fold_res_UB {I S} (f : I -> S -> res S) l s i :
  In i l -> (forall s, f i s = UB) -> (forall j s, f j s <> Throw) -> fold_res f l s = UB.
Proof.
  intros Hi Hu Ht. revert s. induction l as [|j l IH]; intros s; [destruct Hi|].
  cbn [fold_res]. destruct Hi as [->|Hi].
  - now rewrite Hu.
  - specialize (Ht j s). destruct (f j s); cbn [bind]; auto. congruence.
Qed.

Lemma map_res_no_throw {A B} (f : A -> res B) l : (forall a, f a <> Throw) -> map_res f l <> Throw.
Proof.
  intros H. induction l as [|a l IH]; cbn [map_res]; [discriminate|].
  specialize (H a). destruct (f a); cbn [bind]; try discriminate; [|congruence].
  destruct (map_res f l); cbn [bind]; try discriminate. congruence.
Qed.

Lemma map_res_UB {A B} (f : A -> res B) l a :
  In a l -> f a = UB -> (forall a, f a <> Throw) -> map_res f l = UB.
Proof.
  intros Hi Hu Ht. induction l as [|b l IH]; [destruct Hi|]. cbn [map_res].
  destruct Hi as [->|Hi].
  - now rewrite Hu.
  - specialize (Ht b). destruct (f b); cbn [bind]; auto; [|congruence]. now rewrite IH.
Qed.

Lemma vload_no_throw {A} (v : vol A) x y z : vload v x y z <> Throw.
Proof. unfold vload. destruct (inb v x y z); discriminate. Qed.
Lemma vstore_no_throw {A} (v : vol A) x y z a : vstore v x y z a <> Throw.
Proof. unfold vstore. destruct (inb v x y z); discriminate. Qed.

Lemma cell_eqb_eq a b : cell_eqb a b = true <-> a = b.
Proof.
  destruct a as [[x y] z], b as [[x' y'] z']. unfold cell_eqb. rewrite !andb_true_iff.
  split; [intros; pteq|intros E; injection E; lia].
Qed.

Section W.
Context {V : cvars}.

Lemma write_same (u : vol V) w : same_dims u (write u w).
Proof. destruct w as [[[x y] z] a]. repeat split. Qed.

Lemma after_same ws (u : vol V) : same_dims u (after ws u).
Proof.
  revert u. induction ws as [|w ws IH]; intros u; [repeat split|].
  cbn [after fold_left]. eapply same_dims_trans; [apply (write_same u w)|apply IH].
Qed.

Lemma write_other (u : vol V) c a c' : inr u c -> inr u c' -> c <> c' -> vget (write u (c, a)) c' = vget u c'.
Proof.
  destruct c as [[x y] z], c' as [[x' y'] z']. intros H H' Hn. unfold write, vget. cbn [vnx vny vdat].
  destruct (Z.eqb_spec (index (vnx u) (vny u) x' y' z') (index (vnx u) (vny u) x y z)) as [E|]; [|reflexivity].
  exfalso. apply Hn. unfold inr in *. symmetry.
  apply index_inj in E; [|lia..]. destruct E as (-> & -> & ->). reflexivity.
Qed.

Lemma after_other ws (u : vol V) c :
  inr u c -> Forall (fun w => inr u (fst w) /\ fst w <> c) ws -> vget (after ws u) c = vget u c.
Proof.
  revert u. induction ws as [|[b a] ws IH]; intros u Hc Hf; [reflexivity|].
  inversion Hf as [|w l [Hb Hn] Hf']; subst. cbn [fst] in *. cbn [after fold_left].
  change (fold_left write ws (write u (b, a))) with (after ws (write u (b, a))).
  rewrite IH.
  - now apply write_other.
  - eapply inr_same; [apply (write_same u (b, a))|exact Hc].
  - eapply Forall_impl; [|exact Hf']. intros w [H1 H2]. split; auto.
    eapply inr_same; [apply (write_same u (b, a))|exact H1].
Qed.
End W.

Section Inner.
Context {V : cvars}.
Variables (dims g : Z) (fx : numflux V) (rc : recon V).
Hypothesis Hdims : 1 <= dims <= 3.
Notation ng := (ghost dims g).

(** ** Reconstructions that respect the region read interior cells only *)
Lemma reconstruct_inner (ld : reader V) d (u left right : vol V) :
  0 <= g -> 1 <= rec_ghosts rc -> rec_all rc = false -> 0 <= d < dims ->
  (forall e x y z, inreg (int_lo dims g) (int_hi dims g u) (x, y, z) = true ->
     ld e x y z = vload u x y z) ->
  reconstruct_w dims rc ld d u left right ng (fun k => - ng k) =
  reconstruct dims rc d u left right ng (fun k => - ng k).
Proof.
  intros Hg Hr Ha Hd Hld. unfold reconstruct_w, reconstruct. rewrite Ha.
  apply for3_ext. intros x y z lr Hc.
  rewrite (map_res_ext _ (fun j => vload u (x + unit_ d 0 * j) (y + unit_ d 1 * j) (z + unit_ d 2 * j))).
  - reflexivity.
  - intros j Hj. apply zrange_In in Hj. apply Hld. apply inreg_iff.
    rewrite move_unit by (unfold dir; lia). intros k Hk. rewrite coord_move by (auto; unfold dir; lia).
    pose proof (proj1 (inreg_iff
      (fun k => ghost dims (rec_ghosts rc) k - unit_ d k + ng k)
      (fun k => total u k - (ghost dims (rec_ghosts rc) k - unit_ d k) + - ng k) (x, y, z)) Hc k Hk) as B.
    cbn beta in B. unfold int_lo, int_hi, ghost, unit_, total in *. rewrite Z.eqb_sym in B.
    destruct (Z.eqb_spec k d) as [->|Hn].
    + cbn [b2z] in B. destruct (Z.ltb_spec d dims); lia.
    + cbn [b2z] in B. destruct (Z.ltb_spec k dims); lia.
Qed.

Lemma compute_flux_inner (ld : reader V) (u : vol V) (s : fstate V) :
  0 <= g -> 1 <= rec_ghosts rc -> rec_all rc = false ->
  (forall e x y z, inreg (int_lo dims g) (int_hi dims g u) (x, y, z) = true ->
     ld e x y z = vload u x y z) ->
  compute_flux_w dims g fx rc ld u ng (fun k => - ng k) s =
  compute_flux dims g fx rc u ng (fun k => - ng k) s.
Proof.
  intros Hg Hr Ha Hld. unfold compute_flux_w, compute_flux.
  destruct (make_zero dims g ng (fun k => - ng k) (f_out s)); cbn [bind]; try reflexivity.
  apply for_ext. intros d t Hd. now rewrite reconstruct_inner.
Qed.

(** ** Reconstructions that ignore the region read every cell *)
Lemma compute_flux_blind (ld : reader V) (u : vol V) (s : fstate V) start fin c :
  1 <= rec_ghosts rc -> rec_all rc = true -> inr u c -> 2 * rec_ghosts rc - 1 <= vnx u ->
  (forall e x y z, ld e x y z <> Throw) ->
  (forall e x y z, (x, y, z) = c -> ld e x y z = UB) ->
  forall o, make_zero dims g start fin (f_out s) = Ok o ->
  compute_flux_w dims g fx rc ld u start fin s = UB.
Proof.
  intros Hr Ha Hc Hn Ht Hu o E. unfold compute_flux_w. rewrite E. cbn [bind].
  unfold for_. rewrite zrange_cons by lia. cbn [fold_res].
  match goal with |- bind (bind ?X _) _ = _ => replace X with (@UB (vol V * vol V)); [reflexivity|] end.
  symmetry. unfold reconstruct_w. rewrite Ha. rewrite for3_box.
  set (r := rec_ghosts rc) in *. destruct c as [[x y] z]. unfold inr in Hc.
  set (j := Z.max (x - (vnx u - r)) (Z.min 0 (x - (r - 1)))).
  assert (Hj : - (r - 1) <= j < r /\ r - 1 <= x - j < vnx u - (r - 1)) by (unfold j; lia).
  apply fold_res_UB with (i := (x - j, y, z)).
  - apply box_In. unfold unit_. cbn [Z.eqb b2z Pos.eqb]. lia.
  - intros lr. rewrite map_res_UB with (a := j); [reflexivity| | |].
    + apply zrange_In. lia.
    + apply Hu. unfold unit_. cbn [Z.eqb b2z Pos.eqb]. pteq.
    + intros k. apply Ht.
  - intros [[x' y'] z'] lr.
    match goal with |- bind ?X _ <> _ => pose proof (map_res_no_throw (fun j0 =>
       ld (0, (x', y', z'), j0) (x' + unit_ 0 0 * j0) (y' + unit_ 0 1 * j0) (z' + unit_ 0 2 * j0))
       (zrange (- (r - 1)) r) (fun j0 => Ht _ _ _ _)) as N; destruct X end; cbn [bind]; try discriminate.
    2:{ congruence. }
    match goal with |- bind (vstore ?v ?a ?b ?e ?q) _ <> _ => pose proof (vstore_no_throw v a b e q) as N2;
      destruct (vstore v a b e q) end; cbn [bind]; try discriminate; [|congruence].
    match goal with |- bind (vstore ?v ?a ?b ?e ?q) _ <> _ => pose proof (vstore_no_throw v a b e q) as N3;
      destruct (vstore v a b e q) end; cbn [bind]; try discriminate. congruence.
Qed.
End Inner.

Section Outcome.
Context {V : cvars}.
Variables (dims g : Z) (fx : numflux V) (rc : recon V).
Hypothesis Hdims : 1 <= dims <= 3.
Hypothesis Hcomp : compatible fx rc g.
Notation ng := (ghost dims g).

(** Reads yield some value everywhere in the volume and the value of [u] in
    the interior. *)
Definition settled (ld : reader V) (u : vol V) : Prop :=
  (forall e x y z, inr u (x, y, z) -> exists v, ld e x y z = Ok v) /\
  (forall e x y z, inreg (int_lo dims g) (int_hi dims g u) (x, y, z) = true ->
     ld e x y z = Ok (vget u (x, y, z))).

Definition seen (ld : reader V) (u : vol V) (e : event) (c : cell) : V :=
  let '(x, y, z) := c in match ld e x y z with Ok v => v | _ => vget u c end.

Lemma seen_ok ld u e x y z : settled ld u -> inr u (x, y, z) ->
  ld e x y z = Ok (seen ld u e (x, y, z)).
Proof. intros [H _] Hc. unfold seen. destruct (H e x y z Hc) as [v ->]. reflexivity. Qed.
Lemma seen_int ld u e c : settled ld u -> inreg (int_lo dims g) (int_hi dims g u) c = true ->
  seen ld u e c = vget u c.
Proof. destruct c as [[x y] z]. intros [_ H] Hc. unfold seen. now rewrite H. Qed.

(** The values [reconstruct_w] computes. *)
Definition rec_seen (ld : reader V) (d : Z) (u : vol V) (c : cell) : V * V :=
  rec_fun rc (map (fun j => seen ld u (d, c, j) (move d j c)) (zrange (- (rec_ghosts rc - 1)) (rec_ghosts rc))).

(** The cells fluxes of the inner region look at: their reconstruction reads
    interior cells only. *)
Definition near (u : vol V) (d : Z) (c : cell) : Prop := forall k, dir k ->
  inner_lo dims g k - unit_ d k * (g - rec_ghosts rc + 1) <= coord k c
    < inner_hi dims g u k + unit_ d k * (g - rec_ghosts rc + 1).

Lemma reconstruct_seen (ld : reader V) d (u left right : vol V) :
  settled ld u -> fits dims g u -> 0 <= d < dims -> same_dims u left -> same_dims u right ->
  exists left' right',
    reconstruct_w dims rc ld d u left right ng (fun k => - ng k) = Ok (left', right') /\
    same_dims u left' /\ same_dims u right' /\
    (forall c, near u d c ->
       vget left' c = fst (rec_seen ld d u c) /\ vget right' c = snd (rec_seen ld d u c)).
Proof.
  intros Hset Hf Hd' Dl Dr.
  assert (Hd : dir d) by (unfold dir; lia).
  destruct Hcomp as [Hr _]. unfold reconstruct_w.
  set (r := rec_ghosts rc) in *.
  set (lo' := fun k => if rec_all rc then unit_ d k * (r - 1)
              else (ghost dims r k - unit_ d k) + ng k).
  set (hi' := fun k => if rec_all rc then total u k - unit_ d k * (r - 1)
              else total u k - (ghost dims r k - unit_ d k) + - ng k).
  assert (Hk : forall k, dir k -> 0 <= unit_ d k * (r - 1) <= lo' k /\
             hi' k <= total u k - unit_ d k * (r - 1) /\
             lo' k <= inner_lo dims g k - unit_ d k * (g - r + 1) /\
             inner_hi dims g u k + unit_ d k * (g - r + 1) <= hi' k).
  { intros k Hk. specialize (Hf k Hk).
    unfold lo', hi', inner_lo, inner_hi, ghost, unit_ in *.
    assert (b2z (d =? k) = 1 /\ k = d \/ b2z (d =? k) = 0 /\ k <> d) as [[E ->]|[E N]].
    { destruct (Z.eqb_spec d k); simpl; auto. }
    - rewrite E. destruct (Z.ltb_spec d dims); [|lia]. destruct (rec_all rc); lia.
    - rewrite E. destruct (Z.ltb_spec k dims); destruct (rec_all rc); lia. }
  match goal with |- exists q1 q2, for3 _ _ _ _ _ _ ?B _ = _ /\ _ =>
    destruct (for3_write2 (lo' 2) (hi' 2) (lo' 1) (hi' 1) (lo' 0) (hi' 0) B
      (fun c => fst (rec_seen ld d u c)) (fun c => snd (rec_seen ld d u c)) left right)
      as (l' & r' & E & D1 & D2 & W1 & W2) end.
  - eapply same_dims_trans; [apply same_dims_sym; exact Dl|exact Dr].
  - intros c Hc. eapply inr_same; [exact Dl|]. apply inr_iff. intros k Hk'.
    apply (proj1 (inreg_iff lo' hi' c)) with (k := k) in Hc; auto.
    specialize (Hk k Hk'). lia.
  - intros x y z v' w' Hc.
    rewrite (map_res_ok _ (fun j => seen ld u (d, (x, y, z), j) (move d j (x, y, z)))).
    + reflexivity.
    + intros j Hj. apply zrange_In in Hj. rewrite <- move_unit by exact Hd.
      apply seen_ok; [exact Hset|]. rewrite move_unit by exact Hd.
      apply inr_iff. intros k Hk'. rewrite coord_move by auto.
      apply (proj1 (inreg_iff lo' hi' _)) with (k := k) in Hc; auto.
      specialize (Hk k Hk'). unfold unit_ in Hk.
      destruct (Z.eqb_spec k d) as [->|N].
      * rewrite Z.eqb_refl in Hk. cbn [b2z] in Hk. fold r in Hj. lia.
      * lia.
  - exists l', r'. split; [exact E|].
    split; [sd|]. split; [sd|].
    assert (In1 : forall c, inreg lo' hi' c = true -> inr u c ->
       vget l' c = fst (rec_seen ld d u c) /\ vget r' c = snd (rec_seen ld d u c)).
    { intros c Hc Hi. rewrite W1, W2 by (eapply inr_same; [|eassumption]; sd).
      unfold inreg in Hc. rewrite Hc. auto. }
    intros c Hc. apply In1.
    + apply inreg_iff. intros k Hk'. specialize (Hk k Hk'). specialize (Hc k Hk'). lia.
    + apply inr_iff. intros k Hk'. specialize (Hk k Hk'). specialize (Hc k Hk'). lia.
Qed.

(** Next to the inner region the values are those of [u]. *)
Lemma rec_seen_inner ld d u c : settled ld u -> 0 <= d < dims -> near u d c ->
  rec_seen ld d u c = rec_at rc d (vget u) c.
Proof.
  intros Hset Hd Hc. unfold rec_seen, rec_at. f_equal. apply map_ext_in. intros j Hj.
  apply zrange_In in Hj. apply seen_int; [exact Hset|]. apply inreg_iff. intros k Hk.
  rewrite coord_move by (auto; unfold dir; lia). specialize (Hc k Hk).
  pose proof (ng_nonneg dims g fx rc Hcomp k). destruct Hcomp as [Hr _].
  unfold inner_lo, inner_hi, int_lo, int_hi, unit_ in *. rewrite Z.eqb_sym in Hc.
  destruct (Z.eqb_spec k d) as [Eke|]; cbn [b2z] in Hc; [rewrite Eke in *|lia].
  assert (ng d = g) by (unfold ghost; destruct (Z.ltb_spec d dims); lia). lia.
Qed.

Lemma reconstruct_net (ld : reader V) d (u left right out temp : vol V) :
  settled ld u -> fits dims g u -> 0 <= d < dims ->
  same_dims u left -> same_dims u right -> same_dims u out -> same_dims u temp ->
  exists left' right' out' temp',
    reconstruct_w dims rc ld d u left right ng (fun k => - ng k) = Ok (left', right') /\
    net_flux dims g fx d left' right' out temp ng (fun k => - ng k) =
      Ok (out', temp', max_speed fx rc (inner_lo dims g) (inner_hi dims g u) d (vget u)) /\
    same_dims u left' /\ same_dims u right' /\ same_dims u out' /\ same_dims u temp' /\
    (forall c, inr u c -> vget out' c =
       if inreg (inner_lo dims g) (inner_hi dims g u) c
       then vadd (vget out c) (contrib fx rc d (vget u) c) else vget out c).
Proof.
  intros Hset Hf Hd Dl Dr Do Dt.
  destruct (reconstruct_seen ld d u left right) as (l' & r' & E & Fl & Fr & W); auto.
  assert (Hdir : dir d) by (unfold dir; lia).
  assert (W' : forall c, near u d c -> vget l' c = fst (rec_at rc d (vget u) c) /\ vget r' c = snd (rec_at rc d (vget u) c)).
  { intros c Hc. destruct (W c Hc) as [-> ->]. rewrite rec_seen_inner by auto. auto. }
  destruct (net_flux_spec dims g fx rc Hcomp d u l' r' out temp ng (fun k => - ng k)
     (inner_lo dims g) (inner_hi dims g u)) as (o' & t' & E2 & Fo & Ft & Wo); auto.
  - lia.
  - intros; unfold inner_lo; lia.
  - intros; unfold inner_hi; lia.
  - exact (reg_ok_inner dims g fx rc Hcomp u Hf).
  - intros c Hc. apply W'. intros k Hk. specialize (Hc k Hk). destruct Hcomp as [Hr _].
    unfold unit_ in *. destruct (d =? k); cbn [b2z] in *; lia.
  - exists l', r', o', t'. auto 10.
Qed.

(** ** The inner region gives the same output and wave speeds *)
Definition alike (u : vol V) (s t : fstate V) : Prop :=
  st_dims u s /\ st_dims u t /\
  (forall c, inr u c -> vget (f_out s) c = vget (f_out t) c) /\
  (forall d, f_speed s d = f_speed t d).

Lemma compute_flux_settled (ld : reader V) (u : vol V) (s : fstate V) :
  settled ld u -> fits dims g u -> st_dims u s ->
  exists s1 s2,
    compute_flux_w dims g fx rc ld u ng (fun k => - ng k) s = Ok s1 /\
    compute_flux dims g fx rc u ng (fun k => - ng k) s = Ok s2 /\
    alike u s1 s2.
Proof.
  intros Hset Hf Hs.
  destruct Hs as (Dl & Dr & Dt & Do). unfold compute_flux_w, compute_flux.
  pose proof (reg_ok_inner dims g fx rc Hcomp u Hf) as Reg.
  assert (Hlo : forall k, dir k -> inner_lo dims g k = ng k + ng k) by (intros; unfold inner_lo; lia).
  assert (Hhi : forall k, dir k -> inner_hi dims g u k = total u k - ng k + - ng k)
    by (intros; unfold inner_hi; lia).
  destruct (make_zero_spec dims g fx rc Hcomp u (f_out s) ng (fun k => - ng k) (inner_lo dims g) (inner_hi dims g u))
    as (o0 & E0 & D0 & W0); auto.
  rewrite E0. cbn [bind].
  apply for_rel.
  - assert (st_dims u (mkfstate (f_left s) (f_right s) (f_temp s) o0 (f_speed s))).
    { repeat split; simpl; try apply Dl; try apply Dr; try apply Dt; try apply D0. }
    split; [assumption|]. split; [assumption|]. split; reflexivity.
  - intros d a b Hd ((Al & Ar & At & Ao) & (Bl & Br & Bt & Bo) & Wab & Sab).
    assert (Hdir : dir d) by (unfold dir; lia).
    destruct (reconstruct_net ld d u (f_left a) (f_right a) (f_out a) (f_temp a))
      as (l1 & r1 & o1 & t1 & E1 & E2 & F1 & F2 & F3 & F4 & W1); auto.
    rewrite E1. cbn [bind fst snd]. rewrite E2. cbn [bind fst snd].
    destruct (reconstruct_spec dims g fx rc Hcomp d u (f_left b) (f_right b) ng (fun k => - ng k)
       (inner_lo dims g) (inner_hi dims g u)) as (l2 & r2 & E3 & G1 & G2 & W2 & Wall); auto; try lia.
    rewrite E3. cbn [bind fst snd].
    destruct (net_flux_spec dims g fx rc Hcomp d u l2 r2 (f_out b) (f_temp b) ng (fun k => - ng k)
       (inner_lo dims g) (inner_hi dims g u)) as (o2 & t2 & E4 & G3 & G4 & W3); auto; try lia.
    rewrite E4. cbn [bind fst snd].
    eexists. eexists. split; [reflexivity|]. split; [reflexivity|].
    split; [split; [exact F1|split; [exact F2|split; [exact F4|exact F3]]]|].
    split; [split; [exact G1|split; [exact G2|split; [exact G4|exact G3]]]|].
    cbn [f_out f_speed]. split.
    + intros c Hc. rewrite W1, W3 by exact Hc. now rewrite Wab.
    + intros k. destruct (k =? d); auto.
Qed.

(** A region computed from alike states. *)
Lemma compute_flux_alike (u u' : vol V) (a b : fstate V) start fin lo hi :
  same_dims u u' -> alike u a b ->
  (forall k, dir k -> lo k = ng k + start k) ->
  (forall k, dir k -> hi k = total u k - ng k + fin k) ->
  reg_ok dims g u lo hi ->
  exists a' b', compute_flux dims g fx rc u' start fin a = Ok a' /\
    compute_flux dims g fx rc u' start fin b = Ok b' /\ alike u a' b'.
Proof.
  intros Du ((Al & Ar & At & Ao) & (Bl & Br & Bt & Bo) & Wab & Sab) Hlo Hhi Reg.
  assert (Reg' : reg_ok dims g u' lo hi).
  { intros k Hk. rewrite <- (total_same u u' k Du). auto. }
  destruct (compute_flux_spec dims g fx rc Hdims Hcomp u' a start fin lo hi) as (a' & Ea & Da & Wa & Sa & Na); auto.
  { intros k Hk. rewrite <- (total_same u u' k Du). auto. }
  { split; [sd|split; [sd|split; sd]]. }
  destruct (compute_flux_spec dims g fx rc Hdims Hcomp u' b start fin lo hi) as (b' & Eb & Db & Wb & Sb & Nb); auto.
  { intros k Hk. rewrite <- (total_same u u' k Du). auto. }
  { split; [sd|split; [sd|split; sd]]. }
  exists a', b'. split; [exact Ea|]. split; [exact Eb|].
  destruct Da as (? & ? & ? & ?), Db as (? & ? & ? & ?).
  split; [split; [sd|split; [sd|split; sd]]|]. split; [split; [sd|split; [sd|split; sd]]|]. split.
  - intros c Hc. rewrite Wa, Wb by (eapply inr_same; [exact Du|exact Hc]). now rewrite Wab.
  - intros d. destruct (Z_le_gt_dec 0 d); [destruct (Z_lt_ge_dec d dims)|].
    + rewrite Sa, Sb by lia. reflexivity.
    + rewrite Na, Nb by lia. apply Sab.
    + rewrite Na, Nb by lia. apply Sab.
Qed.

Lemma alike_speed (u : vol V) (a b : fstate V) w :
  alike u a b -> alike u (mkfstate (f_left a) (f_right a) (f_temp a) (f_out a) w)
                         (mkfstate (f_left b) (f_right b) (f_temp b) (f_out b) w).
Proof.
  intros ((Al & Ar & At & Ao) & (Bl & Br & Bt & Bo) & Wab & _).
  split; [split; [exact Al|split; [exact Ar|split; [exact At|exact Ao]]]|].
  split; [split; [exact Bl|split; [exact Br|split; [exact Bt|exact Bo]]]|].
  split; [exact Wab|reflexivity].
Qed.

Lemma sides_alike (u u' : vol V) (a b : fstate V) :
  fits dims g u -> same_dims u u' -> alike u a b ->
  exists a' b', sides_flux dims g fx rc u' a = Ok a' /\ sides_flux dims g fx rc u' b = Ok b' /\ alike u a' b'.
Proof.
  intros Hf Du Hab. unfold sides_flux.
  match goal with |- exists a' b', bind (for_ _ _ ?B _) _ = _ /\ _ =>
    destruct (for_rel (fun x y : fstate V * (Z -> R) => alike u (fst x) (fst y) /\ forall d, snd x d = snd y d)
      0 dims B B (a, fun _ => 0%R) (b, fun _ => 0%R)) as ([a1 w1] & [b1 w2] & E1 & E2 & H1 & Hw) end.
  - split; [exact Hab|reflexivity].
  - intros d [s w] [t v] Hd [Hst Hwv]. cbn [fst snd] in *.
    assert (Ts : forall k, total (f_out s) k = total u k).
    { intros. symmetry. apply total_same. apply Hst. }
    assert (Tt : forall k, total (f_out t) k = total u k).
    { intros. symmetry. apply total_same. apply Hst. }
    rewrite Ts, Tt.
    destruct (compute_flux_alike u u'
      (mkfstate (f_left s) (f_right s) (f_temp s) (f_out s) (fun _ => 0%R))
      (mkfstate (f_left t) (f_right t) (f_temp t) (f_out t) (fun _ => 0%R))
      (fun _ => 0) (fun k => if k =? d then - total u d + 3 * ng d else 0)
      (bot_lo dims g) (bot_hi dims g u d)) as (sb & tb & Es & Et & Hb).
    { exact Du. }
    { now apply alike_speed. }
    { intros. unfold bot_lo. lia. }
    { intros k Hk. unfold bot_hi. destruct (Z.eqb_spec k d) as [->|]; lia. }
    { apply reg_ok_bot with fx rc; auto. }
    rewrite Es, Et. cbn [bind].
    destruct (compute_flux_alike u u'
      (mkfstate (f_left sb) (f_right sb) (f_temp sb) (f_out sb) (fun _ => 0%R))
      (mkfstate (f_left tb) (f_right tb) (f_temp tb) (f_out tb) (fun _ => 0%R))
      (fun k => if k =? d then total u d - 3 * ng d else 0) (fun _ => 0)
      (top_lo dims g u d) (top_hi dims g u)) as (st & tt & Fs & Ft & Ht).
    { exact Du. }
    { now apply alike_speed. }
    { intros k Hk. unfold top_lo. destruct (Z.eqb_spec k d) as [->|]; lia. }
    { intros. unfold top_hi. lia. }
    { apply reg_ok_top with fx rc; auto. }
    rewrite Fs, Ft. cbn [bind]. eexists. eexists. split; [reflexivity|]. split; [reflexivity|].
    cbn [fst snd]. split; [exact Ht|]. intros k. unfold speed_max. rewrite Hwv.
    destruct Hb as (_ & _ & _ & ->). destruct Ht as (_ & _ & _ & ->). reflexivity.
  - rewrite E1, E2. cbn [bind fst snd] in *. eexists. eexists. split; [reflexivity|]. split; [reflexivity|].
    destruct H1 as (D1 & D2 & W & S). split; [exact D1|]. split; [exact D2|]. split; [exact W|].
    intros d. cbn [f_speed]. unfold speed_max. rewrite Hw. destruct Hab as (_ & _ & _ & ->). reflexivity.
Qed.

(** The sequential model, cut in the same places. *)
Lemma system_flux_split exchange (u : vol V) (s : fstate V) :
  system_flux dims g fx rc exchange u s =
  (s1 <- compute_flux dims g fx rc u ng (fun k => - ng k) s;;
   u' <- exchange u;;
   s2 <- sides_flux dims g fx rc u' s1;;
   Ok (u', s2)).
Proof.
  unfold system_flux. replace (mkfstate (f_left s) (f_right s) (f_temp s) (f_out s) (f_speed s)) with s by now destruct s.
  cbv zeta. destruct (compute_flux dims g fx rc u ng (fun k => - ng k) s) as [s1| |]; cbn [bind]; try reflexivity.
  destruct (exchange u) as [u'| |]; cbn [bind]; try reflexivity.
  unfold sides_flux. cbv zeta.
  match goal with |- bind ?X _ = _ => destruct X; reflexivity end.
Qed.

Lemma system_flux_settled (ld : reader V) exchange (u u' : vol V) (s : fstate V) :
  settled ld u -> fits dims g u -> st_dims u s -> exchange u = Ok u' -> same_dims u u' ->
  exists s1 s2,
    system_flux_w dims g fx rc ld u u' s = Ok (u', s1) /\
    system_flux dims g fx rc exchange u s = Ok (u', s2) /\
    alike u s1 s2.
Proof.
  intros Hset Hf Hs Hex Du.
  destruct (compute_flux_settled ld u s) as (a & b & Ea & Eb & Hab); auto.
  destruct (sides_alike u u' a b) as (a' & b' & Ea' & Eb' & Hab'); auto.
  exists a', b'. unfold system_flux_w. rewrite Ea. cbn [bind]. rewrite Ea'. cbn [bind].
  split; [reflexivity|]. split; [|exact Hab'].
  rewrite system_flux_split, Eb. cbn [bind]. rewrite Hex. cbn [bind]. now rewrite Eb'.
Qed.

End Outcome.
