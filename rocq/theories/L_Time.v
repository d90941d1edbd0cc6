(** Interval writers save at the expected times. *)
From Coq Require Import ZArith Reals List Bool Lia Lra.
From Verif Require Import M_Base M_Time S_Time.
Import ListNotations.
Open Scope Z_scope.

Lemma Rge_bool_true a b : (b <= a)%R -> Rge_bool a b = true.
Proof. intros. unfold Rge_bool. destruct (Rle_dec b a); auto; lra. Qed.
Lemma Rge_bool_false a b : (a < b)%R -> Rge_bool a b = false.
Proof. intros. unfold Rge_bool. destruct (Rle_dec b a); auto; lra. Qed.
Lemma Rge_bool_iff a b : Rge_bool a b = true <-> (b <= a)%R.
Proof. unfold Rge_bool. destruct (Rle_dec b a); split; auto; discriminate. Qed.

(** The observer [w0] has saved [m] times. *)
Definition at_ (w0 : tw) (m : nat) (w : tw) : Prop :=
  match w0 with
  | TFixed T s k => w = TFixed T s (k + Z.of_nat m) /\ 0 < k + Z.of_nat m
  | TStat T wi _ => let k := (if wi then 0 else 1) + Z.of_nat m in w = TStat T wi k /\ 0 < k
  | TCoarse T n skips gdx _ _ _ _ =>
      exists m', m = S m' /\
      w = TCoarse T n skips gdx gdx (1 + Z.of_nat m' / (2 * n + 1))
                  (Z.of_nat m' mod (2 * n + 1) - n) false
  end.

Lemma divmod_succ a b : 0 < b -> 0 <= a ->
  ((a + 1) / b = a / b /\ (a + 1) mod b = a mod b + 1 /\ a mod b + 1 < b) \/
  ((a + 1) / b = a / b + 1 /\ (a + 1) mod b = 0 /\ a mod b + 1 = b).
Proof.
  intros Hb Ha. pose proof (Z.div_mod a b ltac:(lia)). pose proof (Z.mod_pos_bound a b Hb).
  destruct (Z.eq_dec (a mod b + 1) b) as [E|E].
  - right. assert (a + 1 = b * (a / b + 1) + 0) by lia.
    split; [|split]; auto.
    + symmetry. apply Z.div_unique with 0; lia.
    + symmetry. apply Z.mod_unique with (a / b + 1); lia.
  - left. assert (a + 1 = b * (a / b) + (a mod b + 1)) by lia.
    split; [|split]; [| |lia].
    + symmetry. apply Z.div_unique with (a mod b + 1); lia.
    + symmetry. apply Z.mod_unique with (a / b); lia.
Qed.

Lemma save_time_lt w m : meetable w -> (save_time w m < save_time w (S m))%R.
Proof.
  destruct w as [T s k|T wi k|T n sk gdx dx k j f]; cbn [save_time meetable]; intros H.
  - unfold fixed_times. destruct H as [HT _].
    replace (k + Z.of_nat (S m)) with (k + Z.of_nat m + 1) by lia. rewrite (plus_IZR (k + Z.of_nat m) 1). nra.
  - unfold fixed_times. set (q := if wi then 0 else 1).
    replace (q + Z.of_nat (S m)) with (q + Z.of_nat m + 1) by lia. rewrite (plus_IZR (q + Z.of_nat m) 1). nra.
  - destruct H as (HT & Hn & Hs & Hd & Hw & _). set (h := (IZR (sk + 1) * gdx)%R) in *.
    assert (Hh : (0 < h)%R) by (apply Rmult_lt_0_compat; [apply IZR_lt; lia|lra]). clearbody h.
    unfold coarse_times. destruct m as [|m].
    + simpl Z.of_nat. rewrite Z.div_0_l, Z.mod_0_l by lia. simpl Z.add.
      rewrite (minus_IZR 0 n). rewrite mult_IZR in Hw. assert (N : (0 <= IZR n)%R) by (apply IZR_le; lia).
      pose proof (Rmult_le_pos _ _ N (Rlt_le _ _ Hh)). lra.
    + rewrite Nat2Z.inj_succ, <- Z.add_1_r.
      destruct (divmod_succ (Z.of_nat m) (2 * n + 1) ltac:(lia) ltac:(lia)) as [(E1 & E2 & E3)|(E1 & E2 & E3)];
        rewrite E1, E2.
      * rewrite (minus_IZR (_ + 1) n), minus_IZR, (plus_IZR (_ mod _) 1). lra.
      * replace (Z.of_nat m mod (2 * n + 1)) with (2 * n) by lia.
        replace (2 * n - n) with n by lia. replace (0 - n) with (- n) by lia.
        rewrite Z.add_assoc, (plus_IZR (1 + _) 1), opp_IZR. rewrite mult_IZR in Hw. lra.
Qed.

Lemma save_time_mono w : meetable w -> forall i j, (i < j)%nat -> (save_time w i < save_time w j)%R.
Proof.
  intros M i j H. induction H; [now apply save_time_lt|].
  eapply Rlt_trans; [eassumption|now apply save_time_lt].
Qed.

(** A later call of write. *)
Lemma put_step w0 m w t : meetable w0 -> at_ w0 m w -> (0 < t)%R -> (t <= save_time w0 m)%R ->
  (t = save_time w0 m /\ exists w', tw_put t w = (w', true) /\ at_ w0 (S m) w') \/
  ((t < save_time w0 m)%R /\ exists w', tw_put t w = (w', false) /\ at_ w0 m w').
Proof.
  intros Hm Ha Ht Hle.
  destruct w0 as [T s k|T wi k|T n sk gdx dx k j f]; cbn [save_time at_] in Ha, Hle |- *.
  - destruct Ha as [-> Hk]. unfold fixed_times in *. simpl.
    destruct Hle as [Hlt|He].
    + right. split; [exact Hlt|]. rewrite Rge_bool_false by lra. eauto.
    + left. split; [exact He|]. rewrite Rge_bool_true by lra. eexists. split; [reflexivity|].
      split; [f_equal; lia|lia].
  - destruct Ha as [-> Hk]. unfold fixed_times in *. simpl.
    unfold Reqb. destruct (Req_EM_T t 0); [lra|]. destruct Hle as [Hlt|He].
    + right. split; [exact Hlt|]. rewrite Rge_bool_false by lra. eauto.
    + left. split; [exact He|]. rewrite Rge_bool_true by lra. eexists. split; [reflexivity|].
      split; [f_equal; lia|lia].
  - destruct Ha as (m' & -> & ->). unfold coarse_times in *. simpl in Hm.
    destruct Hm as (_ & Hn & _).
    pose proof (Z.mod_pos_bound (Z.of_nat m') (2 * n + 1) ltac:(lia)) as B.
    pose proof (Z.div_pos (Z.of_nat m') (2 * n + 1) ltac:(lia) ltac:(lia)) as B'.
    assert (E : coarse_time T sk gdx (1 + Z.of_nat m' / (2 * n + 1)) (Z.of_nat m' mod (2 * n + 1) - n) =
      (IZR (1 + Z.of_nat m' / (2 * n + 1)) * T + IZR (Z.of_nat m' mod (2 * n + 1) - n) * (IZR (sk + 1) * gdx))%R)
      by (unfold coarse_time; ring).
    unfold tw_put. cbv zeta. rewrite E. clear E.
    destruct (Z.eqb_spec (1 + Z.of_nat m' / (2 * n + 1)) 0); [lia|].
    destruct Hle as [Hlt|He].
    + right. split; [exact Hlt|]. rewrite Rge_bool_false by lra.
      destruct (Z.eqb_spec (Z.of_nat m' mod (2 * n + 1) - n) (n + 1)); [lia|].
      eexists. split; [reflexivity|]. exists m'. auto.
    + left. split; [exact He|]. rewrite Rge_bool_true by lra.
      destruct (divmod_succ (Z.of_nat m') (2 * n + 1) ltac:(lia) ltac:(lia)) as [(E1 & E2 & E3)|(E1 & E2 & E3)].
      * destruct (Z.eqb_spec (Z.of_nat m' mod (2 * n + 1) - n + 1) (n + 1)); [lia|].
        eexists. split; [reflexivity|]. exists (S m'). split; [reflexivity|].
        rewrite Nat2Z.inj_succ, <- Z.add_1_r, E1, E2. f_equal; lia.
      * destruct (Z.eqb_spec (Z.of_nat m' mod (2 * n + 1) - n + 1) (n + 1)); [|lia].
        eexists. split; [reflexivity|]. exists (S m'). split; [reflexivity|].
        rewrite Nat2Z.inj_succ, <- Z.add_1_r, E1, E2. f_equal; lia.
Qed.

(** The call at time 0. *)
Lemma put_first w0 : meetable w0 ->
  (save_time w0 0 = 0%R /\ exists w', tw_put 0 w0 = (w', true) /\ at_ w0 1 w') \/
  ((0 < save_time w0 0)%R /\ exists w', tw_put 0 w0 = (w', false) /\ at_ w0 0 w').
Proof.
  intros Hm. destruct w0 as [T s k|T wi k|T n sk gdx dx k j f]; cbn [meetable save_time at_ tw_put] in Hm |- *.
  - destruct Hm as [HT [[-> ->]|[-> Hs]]]; unfold fixed_times; simpl.
    + left. split; [lra|]. rewrite Rge_bool_true by lra. eexists. split; [reflexivity|]. split; [reflexivity|lia].
    + right. split; [lra|]. rewrite Rge_bool_false by lra. eexists. split; [reflexivity|]. split; [reflexivity|lia].
  - unfold fixed_times, Reqb. destruct (Req_EM_T 0 0); [|lra]. destruct wi; simpl.
    + left. split; [lra|]. rewrite Rge_bool_true by lra. eexists. split; [reflexivity|]. split; [reflexivity|lia].
    + right. split; [lra|]. rewrite Rge_bool_false by lra. eexists. split; [reflexivity|]. split; [reflexivity|lia].
  - destruct Hm as (HT & Hn & Hs & Hd & Hw & -> & -> & ->). left. split; [reflexivity|].
    replace (coarse_time T sk gdx 0 0) with 0%R by (unfold coarse_time; ring). rewrite Rge_bool_true by lra.
    change (0 =? 0) with true. cbv iota.
    destruct (Z.eqb_spec (- n) (n + 1)); [lia|]. eexists. split; [reflexivity|]. exists 0%nat.
    split; [reflexivity|]. simpl Z.of_nat. rewrite Z.div_0_l, Z.mod_0_l by lia. f_equal.
Qed.

Lemma adjust_at w0 m w t dt : meetable w0 -> at_ w0 m w ->
  tw_adjust t w dt = Rmin dt (save_time w0 m - t).
Proof.
  intros Hm Ha. destruct w0 as [T s k|T wi k|T n sk gdx dx k j f]; cbn [save_time at_] in Ha |- *.
  - destruct Ha as [-> Hk]. simpl. destruct (Z.ltb_spec 0 (k + Z.of_nat m)); [|lia].
    f_equal. unfold fixed_times. ring.
  - destruct Ha as [-> Hk]. simpl. destruct (Z.ltb_spec 0 ((if wi then 0 else 1) + Z.of_nat m)); [|lia].
    f_equal. unfold fixed_times. ring.
  - destruct Ha as (m' & -> & ->). simpl in Hm. destruct Hm as (_ & Hn & _).
    pose proof (Z.div_pos (Z.of_nat m') (2 * n + 1) ltac:(lia) ltac:(lia)) as B'.
    unfold tw_adjust, coarse_times, coarse_time.
    destruct (Z.ltb_spec 0 (1 + Z.of_nat m' / (2 * n + 1))) as [_|H]; [|lia].
    f_equal. ring.
Qed.

(** Invariant of one observer at time [t]. *)
Definition ok1 (t : R) (w0 : tw) (wl : logged) : Prop :=
  exists m, at_ w0 m (fst wl) /\ snd wl = map (save_time w0) (seq 0 m) /\
    (forall i, (i < m)%nat -> (save_time w0 i <= t)%R) /\ (t < save_time w0 m)%R.

Lemma ok1_saved t w0 wl : ok1 t w0 wl -> saved_up_to (save_time w0) t (snd wl).
Proof. intros (m & _ & H). now exists m. Qed.

Lemma ok1_saved_all t l ls : Forall2 (ok1 t) l ls ->
  Forall2 (fun w wl => saved_up_to (save_time w) t (snd wl)) l ls.
Proof. induction 1; constructor; auto. now apply ok1_saved. Qed.

Lemma ok1_first w0 : meetable w0 -> ok1 0 w0 (put_log 0 (w0, [])).
Proof.
  intros Hm. unfold put_log. simpl fst.
  destruct (put_first w0 Hm) as [(E & w' & P & A)|(E & w' & P & A)]; rewrite P.
  - exists 1%nat. simpl. split; [exact A|]. split; [now rewrite E|]. split.
    + intros i Hi. replace i with 0%nat by lia. lra.
    + rewrite <- E. now apply save_time_lt.
  - exists 0%nat. simpl. split; [exact A|]. split; [reflexivity|]. split; [lia|exact E].
Qed.

Lemma ok1_step t t' w0 wl : meetable w0 -> ok1 t w0 wl -> (0 <= t)%R -> (t < t')%R ->
  (forall dt, t' - t <= dt -> t' - t <= tw_adjust t (fst wl) dt)%R ->
  ok1 t' w0 (put_log t' wl).
Proof.
  intros Hm (m & A & L & S1 & S2) Ht Hlt Hadj.
  assert (Hle : (t' <= save_time w0 m)%R).
  { specialize (Hadj (t' - t)%R ltac:(lra)). rewrite (adjust_at w0 m) in Hadj by assumption.
    pose proof (Rmin_r (t' - t) (save_time w0 m - t)). lra. }
  unfold put_log. destruct wl as [w l]; simpl in *.
  destruct (put_step w0 m w t' Hm A ltac:(lra) Hle) as [(E & w' & P & A')|(E & w' & P & A')]; rewrite P.
  - exists (S m). cbn [fst snd]. split; [exact A'|]. split; [|split].
    + rewrite seq_S, map_app, <- L, E. reflexivity.
    + intros i Hi. destruct (Nat.eq_dec i m) as [->|]; [lra|]. specialize (S1 i ltac:(lia)). lra.
    + rewrite E. now apply save_time_lt.
  - exists m. cbn [fst snd]. split; [exact A'|]. split; [exact L|]. split; [|exact E].
    intros i Hi. specialize (S1 i Hi). lra.
Qed.

Definition okall (w0s : list tw) (st : R * list logged) : Prop :=
  (0 <= fst st)%R /\ Forall2 (ok1 (fst st)) w0s (snd st).

Lemma shorten_spec t ws : forall dt, (forall wl, In wl ws -> exists x, (0 < x)%R /\ forall d, tw_adjust t (fst wl) d = Rmin d x) ->
  (0 < dt)%R ->
  (0 < shorten t ws dt <= dt)%R /\
  (forall wl, In wl ws -> forall d, (shorten t ws dt <= d -> shorten t ws dt <= tw_adjust t (fst wl) d)%R).
Proof.
  unfold shorten. induction ws as [|wl ws IH]; intros dt H Hd; cbn [fold_left].
  - split; [lra|]. intros wl [].
  - destruct (H wl (or_introl eq_refl)) as (x & Hx & Ex).
    rewrite Ex. assert (P : (0 < Rmin dt x)%R) by (apply Rmin_glb_lt; lra).
    destruct (IH (Rmin dt x) (fun w Hw => H w (or_intror Hw)) P) as [[B1 B2] B3].
    pose proof (Rmin_l dt x). pose proof (Rmin_r dt x).
    split; [lra|]. intros w [<-|Hw] d Hdle; [|now apply B3].
    rewrite Ex. apply Rmin_glb; lra.
Qed.

Lemma Forall2_in_r {A B} (P : A -> B -> Prop) la lb b :
  Forall2 P la lb -> In b lb -> exists a, In a la /\ P a b.
Proof.
  induction 1 as [|x y la lb Hxy H IH]; intros [].
  - subst. exists x. split; [now left|exact Hxy].
  - destruct (IH H0) as (a & Ha & Pa). exists a. split; [now right|exact Pa].
Qed.

Lemma okall_shorten w0s t ws dt : Forall meetable w0s -> Forall2 (ok1 t) w0s ws -> (0 < dt)%R ->
  (0 < shorten t ws dt <= dt)%R /\
  (forall wl, In wl ws -> forall d, (shorten t ws dt <= d -> shorten t ws dt <= tw_adjust t (fst wl) d)%R).
Proof.
  intros Hm Hok Hd. apply shorten_spec; [|exact Hd]. intros wl Hin.
  destruct (Forall2_in_r _ _ _ _ Hok Hin) as (w0 & Hin0 & m & A & _ & _ & S2).
  rewrite Forall_forall in Hm. exists (save_time w0 m - t)%R. split; [lra|].
  intros d. apply adjust_at; auto.
Qed.

Lemma okall_step w0s st dt : Forall meetable w0s -> okall w0s st -> (0 < dt)%R ->
  okall w0s (time_step dt st) /\ (fst st < fst (time_step dt st) <= fst st + dt)%R.
Proof.
  destruct st as [t ws]. intros Hm [Ht Hok] Hd. simpl in Ht, Hok.
  destruct (okall_shorten w0s t ws dt Hm Hok Hd) as [Hs Hw]. unfold time_step. cbn [fst snd].
  split; [|lra]. split; [cbn [fst]; lra|]. cbn [fst snd].
  set (t' := (t + shorten t ws dt)%R) in *.
  assert (G : forall w0s ws0, Forall meetable w0s -> Forall2 (ok1 t) w0s ws0 -> incl ws0 ws ->
    Forall2 (ok1 t') w0s (call_writers t' ws0)).
  { clear - Ht Hs Hw. intros w0s ws0 Hm F. induction F as [|w0 wl w0s ws0 H F IH]; intros Hi; [constructor|].
    inversion Hm; subst. simpl. constructor.
    - apply ok1_step with t; auto; [unfold t'; lra|]. intros d Hdd.
      replace (t' - t)%R with (shorten t ws dt) in * by (unfold t'; ring). apply Hw; auto. apply Hi. now left.
    - apply IH; auto. intros x Hx. apply Hi. now right. }
  apply G; auto. apply incl_refl.
Qed.

Lemma okall_init w0s : Forall meetable w0s -> okall w0s (0%R, call_writers 0 (map (fun w => (w, [])) w0s)).
Proof.
  intros Hm. split; [simpl; lra|]. cbn [fst snd]. unfold call_writers. rewrite map_map.
  induction Hm; simpl; constructor; auto. now apply ok1_first.
Qed.

Lemma okall_drive w0s dts : Forall meetable w0s -> Forall (fun d => 0 < d)%R dts -> okall w0s (drive w0s dts).
Proof.
  intros Hm Hd. unfold drive. pose proof (okall_init w0s Hm) as Hi. revert Hi.
  generalize (0%R, call_writers 0 (map (fun w : tw => (w, [] : list R)) w0s)) as st.
  induction Hd as [|d dts H Hd IH]; intros st Hst; [exact Hst|]. cbn [fold_left]. apply IH.
  now apply okall_step.
Qed.

Lemma drive_snoc w0s dts dt : drive w0s (dts ++ [dt]) = time_step dt (drive w0s dts).
Proof. unfold drive. now rewrite fold_left_app. Qed.

(** C12, C13, C51. *)
Theorem drive_saves w0s dts : Forall meetable w0s -> Forall (fun d => 0 < d)%R dts ->
  Forall2 (fun w0 wl => saved_up_to (save_time w0) (fst (drive w0s dts)) (snd wl)) w0s (snd (drive w0s dts)).
Proof.
  intros Hm Hd. destruct (okall_drive w0s dts Hm Hd) as [_ F].
  revert F. generalize (fst (drive w0s dts)) as t, (snd (drive w0s dts)) as ls. clear. intros t ls F.
  induction F; constructor; auto. now apply ok1_saved.
Qed.
Theorem drive_increases w0s dts dt : Forall meetable w0s -> Forall (fun d => 0 < d)%R (dts ++ [dt]) ->
  (fst (drive w0s dts) < fst (drive w0s (dts ++ [dt])) <= fst (drive w0s dts) + dt)%R.
Proof.
  intros Hm Hd. apply Forall_app in Hd. destruct Hd as [Hd Hd']. inversion Hd'; subst.
  rewrite drive_snoc. apply (okall_step w0s (drive w0s dts) dt); auto. now apply okall_drive.
Qed.

(** The loop with atEnd performs a prefix of the steps. *)
Lemma drive_until_prefix tend w0s dts :
  exists n, (n <= length dts)%nat /\ drive_until tend w0s dts = drive w0s (firstn n dts) /\
    ((tend <= fst (drive_until tend w0s dts))%R \/ n = length dts) /\
    (forall k, (k < n)%nat -> (fst (drive w0s (firstn k dts)) < tend)%R).
Proof.
  unfold drive_until, drive.
  generalize (0%R, call_writers 0 (map (fun w : tw => (w, [] : list R)) w0s)) as st.
  assert (Stop : forall l st, (tend <= fst st)%R ->
    fold_left (fun st dt => if Rge_bool (fst st) tend then st else time_step dt st) l st = st).
  { induction l as [|d l IH]; intros st H; [reflexivity|]. cbn [fold_left]. rewrite Rge_bool_true by exact H. now apply IH. }
  induction dts as [|d dts IH]; intros st; cbn [fold_left length].
  - exists 0%nat. split; [lia|]. split; [reflexivity|]. split; [now right|lia].
  - destruct (Rle_dec tend (fst st)) as [Hle|Hgt].
    + rewrite Rge_bool_true by exact Hle. exists 0%nat. split; [lia|]. split; [|split; [|lia]].
      * simpl. now apply Stop.
      * left. now rewrite Stop.
    + rewrite Rge_bool_false by lra. destruct (IH (time_step d st)) as (n & Hn & E & Hs & Hk).
      exists (S n). split; [lia|]. split; [exact E|]. split; [destruct Hs; [now left|right; lia]|].
      intros [|k] Hk'; simpl; [lra|]. apply Hk. lia.
Qed.

Lemma Forall_firstn {A} (P : A -> Prop) n l : Forall P l -> Forall P (firstn n l).
Proof. intros H. revert n. induction H; intros [|n]; simpl; constructor; auto. Qed.

Lemma firstn_S_snoc {A} k (l : list A) d : (k < length l)%nat -> firstn (S k) l = firstn k l ++ [nth k l d].
Proof.
  revert l. induction k; intros [|a l] H; simpl in *; try lia; [reflexivity|].
  f_equal. apply IHk. lia.
Qed.

(** An observer with a save time at the end time makes the run end exactly there. *)
Theorem until_exact tend w0s dts w0 M : Forall meetable w0s -> Forall (fun d => 0 < d)%R dts ->
  In w0 w0s -> tend = save_time w0 M ->
  (fst (drive_until tend w0s dts) <= tend)%R.
Proof.
  intros Hm Hd Hin HM. destruct (drive_until_prefix tend w0s dts) as (n & Hn & E & _ & Hk).
  rewrite E. rewrite Forall_forall in Hm. pose proof (Hm w0 Hin) as Hm0. rewrite <- Forall_forall in Hm.
  assert (P0 : (0 <= save_time w0 0)%R) by (destruct (put_first w0 Hm0) as [[H _]|[H _]]; lra).
  destruct n as [|k].
  - simpl. rewrite HM. destruct M; [lra|]. pose proof (save_time_mono w0 Hm0 0 (S M) ltac:(lia)). lra.
  - specialize (Hk k ltac:(lia)). rewrite (firstn_S_snoc k dts 0%R) by lia. rewrite drive_snoc.
    set (st := drive w0s (firstn k dts)) in *.
    assert (Hok : okall w0s st) by (apply okall_drive; auto; now apply Forall_firstn).
    assert (Hdk : (0 < nth k dts 0)%R).
    { rewrite Forall_forall in Hd. apply Hd. apply nth_In. lia. }
    destruct (okall_step w0s st (nth k dts 0%R) Hm Hok Hdk) as [_ Hgt].
    destruct Hok as [Ht Hok]. destruct st as [t ws]; cbn [fst snd] in *.
    destruct (okall_shorten w0s t ws _ Hm Hok Hdk) as [Hs Hw].
    unfold time_step in *; cbn [fst] in *.
    assert (exists wl, In wl ws /\ ok1 t w0 wl) as (wl & Hwl & m & A & _ & S1 & S2).
    { clear - Hin Hok. induction Hok; destruct Hin; [subst; eexists; split; [now left|assumption]|].
      destruct (IHHok H0) as (wl & ? & ?). exists wl. split; [now right|assumption]. }
    specialize (Hw wl Hwl _ (Rle_refl _)). rewrite (adjust_at w0 m) in Hw by assumption.
    pose proof (Rmin_r (shorten t ws (nth k dts 0%R)) (save_time w0 m - t)).
    destruct (Nat.le_gt_cases m M) as [HmM|HmM].
    + destruct (Nat.eq_dec m M) as [->|]; [lra|].
      pose proof (save_time_mono w0 Hm0 m M ltac:(lia)). lra.
    + specialize (S1 M HmM). lra.
Qed.

Lemma saved_unique w t l1 l2 : meetable w -> saved_up_to (save_time w) t l1 -> saved_up_to (save_time w) t l2 -> l1 = l2.
Proof.
  intros Hm (m1 & -> & A1 & B1) (m2 & -> & A2 & B2). f_equal. f_equal.
  destruct (Nat.lt_trichotomy m1 m2) as [H|[H|H]]; auto.
  - specialize (A2 m1 H). lra.
  - specialize (A1 m2 H). lra.
Qed.

Lemma meetable_carry w0 m w : meetable w0 -> at_ w0 m w -> (exists T wi k, w0 = TStat T wi k) ->
  meetable w /\ save_time w = save_time w0 /\ (exists T wi k, w = TStat T wi k).
Proof.
  intros Hm A (T & wi & k & ->). destruct A as [-> _]. simpl in *. split; [exact Hm|]. split; eauto.
Qed.

Lemma Forall2_save_time t l1 ls l2 :
  Forall2 (fun w (wl : logged) => saved_up_to (save_time w) t (snd wl)) l1 ls ->
  map save_time l1 = map save_time l2 ->
  Forall2 (fun w (wl : logged) => saved_up_to (save_time w) t (snd wl)) l2 ls.
Proof.
  intros F. revert l2. induction F as [|w wl l1 ls H F IH]; intros [|w2 l2] E; simpl in E; try discriminate; constructor.
  - injection E as E _. now rewrite <- E.
  - apply IH. now injection E.
Qed.

(** Samples one after the other. *)
Definition is_stat (w : tw) : Prop := match w with TStat T _ _ => (0 < T)%R | _ => False end.

Lemma is_stat_meetable w : is_stat w -> meetable w.
Proof. destruct w; simpl; tauto. Qed.

Lemma okall_until tend w0s dts : Forall meetable w0s -> Forall (fun d => 0 < d)%R dts ->
  okall w0s (drive_until tend w0s dts).
Proof.
  intros Hm Hd. destruct (drive_until_prefix tend w0s dts) as (n & _ & E & _). rewrite E.
  apply okall_drive; auto. now apply Forall_firstn.
Qed.

Lemma Forall2_skipn {A B} (P : A -> B -> Prop) la lb n : Forall2 P la lb -> Forall2 P (skipn n la) (skipn n lb).
Proof. intros H. revert n. induction H; intros [|n]; simpl; auto. Qed.

Lemma skipn_length_app {A} (a b : list A) : skipn (length a) (a ++ b) = b.
Proof. induction a; auto. Qed.

Lemma samples_ok tend fresh : Forall meetable fresh -> forall samples stats,
  Forall is_stat stats -> Forall (Forall (fun d => 0 < d)%R) samples ->
  (exists w M, In w (fresh ++ stats) /\ tend = save_time w M) ->
  Forall (fun r => (tend <= fst r)%R ->
      fst r = tend /\
      Forall2 (fun w wl => saved_up_to (save_time w) tend (snd wl)) (fresh ++ stats) (snd r))
    (drive_samples tend fresh stats samples).
Proof.
  intros Hf. induction samples as [|dts samples IH]; intros stats Hs Hd Hend; simpl; [constructor|].
  inversion Hd as [|? ? Hd1 Hd2]; subst.
  assert (Hm : Forall meetable (fresh ++ stats)).
  { apply Forall_app. split; [exact Hf|]. eapply Forall_impl; [|exact Hs]. apply is_stat_meetable. }
  set (r := drive_until tend (fresh ++ stats) dts).
  pose proof (okall_until tend _ dts Hm Hd1) as [Hpos Hok]. fold r in Hpos, Hok.
  constructor.
  - intros Hstop. destruct Hend as (w & M & Hin & HM).
    pose proof (until_exact tend _ dts w M Hm Hd1 Hin HM) as Hle. fold r in Hle.
    assert (E : fst r = tend) by (apply Rle_antisym; assumption). split; [exact E|]. rewrite E in Hok.
    exact (ok1_saved_all _ _ _ Hok).
  - set (stats' := skipn (length fresh) (map fst (snd r))).
    assert (Hc : Forall2 (fun w w' => is_stat w' /\ save_time w' = save_time w) stats stats').
    { unfold stats'. rewrite <- (skipn_length_app fresh stats) at 1.
      assert (G : Forall2 (fun w w' => is_stat w -> is_stat w' /\ save_time w' = save_time w) (fresh ++ stats) (map fst (snd r))).
      { assert (Gen : forall t l ls, Forall2 (ok1 t) l ls ->
          Forall2 (fun w w' => is_stat w -> is_stat w' /\ save_time w' = save_time w) l (map fst ls));
          [|exact (Gen _ _ _ Hok)]. clear. intros t l ls H.
        induction H as [|w wl l ls (m & A & _) H IH]; simpl; constructor; auto. intros Hw.
        destruct w as [|T wi k|]; simpl in Hw; try tauto. destruct A as [-> _]. simpl. auto. }
      apply (Forall2_skipn _ _ _ (length fresh)) in G. rewrite skipn_length_app in G |- *.
      revert Hs G. generalize (skipn (length fresh) (map fst (snd r))) as q. generalize stats as p. clear.
      intros p q Hs G. induction G; constructor; inversion Hs; subst; auto. }
    assert (Hs' : Forall is_stat stats').
    { clear - Hc. induction Hc; constructor; tauto. }
    assert (Hst : map save_time stats' = map save_time stats).
    { clear - Hc. induction Hc as [|? ? ? ? [_ E] ? IH]; simpl; auto. now rewrite E, IH. }
    assert (Hend' : exists w M, In w (fresh ++ stats') /\ tend = save_time w M).
    { destruct Hend as (w & M & Hin & HM). apply in_app_or in Hin. destruct Hin as [Hin|Hin].
      - exists w, M. split; [apply in_or_app; now left|exact HM].
      - apply (in_map save_time) in Hin. rewrite <- Hst in Hin. apply in_map_iff in Hin.
        destruct Hin as (w' & E & Hin). exists w', M. split; [apply in_or_app; now right|now rewrite E]. }
    specialize (IH stats' Hs' Hd2 Hend'). eapply Forall_impl; [|exact IH].
    cbv beta. intros r' Hr' Hstop. destruct (Hr' Hstop) as [E F]. split; [exact E|].
    assert (Hall : map save_time (fresh ++ stats') = map save_time (fresh ++ stats)) by (rewrite !map_app; now f_equal).
    exact (Forall2_save_time _ _ _ _ F Hall).
Qed.
