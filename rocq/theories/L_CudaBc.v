(** Boundary conditions on the GPU: threads that copy. *)
From Coq Require Import ZArith List Bool Lia.
From Verif Require Import M_Base L_Base M_Boundary S_Boundary L_Boundary M_Flux M_Omp L_Omp M_Cuda L_Cuda M_CudaBc S_Cuda.
Import ListNotations.
Open Scope Z_scope.

(** * Threads that only copy elements of one array *)
Section Copies.
Context {A X : Type}.
Variables (size : Z -> Z) (a : Z).
Notation prog := (prog A X).

Fixpoint copies (l : list (Z * Z)) : prog :=
  match l with
  | [] => Ret []
  | (d, s) :: l' => Fetch a s (fun v => Store a d v (copies l'))
  end.

Variable Ls : list (list (Z * Z)).
Let P := concat Ls.
Hypothesis Hin : forall d s, In (d, s) P -> inside size a d = true /\ inside size a s = true.
Hypothesis Hfun : forall d s s', In (d, s) P -> In (d, s') P -> s = s'.
Hypothesis Hsrc : forall d s e, In (d, s) P -> ~ In (s, e) P.

Variable m0 : shared A.

Definition tstate (m : shared A) (l : list (Z * Z)) (p : prog) : Prop :=
  incl l P /\ exists done rest, l = done ++ rest /\
  (p = copies rest \/ exists d s rest', rest = (d, s) :: rest' /\ p = Store a d (m0 a s) (copies rest')) /\
  forall d s, In (d, s) done -> m a d = m0 a s.
Definition untouched (m : shared A) : Prop :=
  forall b i, b <> a \/ (forall s, ~ In (i, s) P) -> m b i = m0 b i.
Definition cinv (st : shared A * list prog) : Prop :=
  Forall2 (tstate (fst st)) Ls (snd st) /\ untouched (fst st).

Lemma tstate_put m l p d s : In (d, s) P -> tstate m l p -> tstate (put m a d (m0 a s)) l p.
Proof.
  intros Hd (Hl & done & rest & E & Hp & Hdone). split; [exact Hl|]. exists done, rest. split; [exact E|]. split; [exact Hp|].
  intros d' s' H'. unfold put. rewrite Z.eqb_refl. destruct (Z.eqb_spec d' d) as [->|]; cbn [andb]; [|auto].
  f_equal. apply (Hfun d); [exact Hd|]. apply Hl. rewrite E. apply in_or_app. auto.
Qed.
Lemma Forall2_put m ls ps d s : In (d, s) P -> Forall2 (tstate m) ls ps -> Forall2 (tstate (put m a d (m0 a s))) ls ps.
Proof. intros Hd. induction 1; constructor; auto. apply tstate_put; assumption. Qed.

Lemma cinv_step st st' : cinv st -> pstep size st st' -> cinv st'.
Proof.
  intros (HF & HU) Hs. destruct Hs as [m l b i k r Hi|m l b i v k r Hi]; cbn [fst snd] in *.
  - apply Forall2_app_inv_r in HF. destruct HF as (l1 & l2 & F1 & F2 & EL). inversion F2 as [|x y l2' r' Hx Hr]; subst.
    split; [|exact HU]. cbn [fst snd]. rewrite EL. apply Forall2_app; [exact F1|]. constructor; [|exact Hr].
    destruct Hx as (Hl & done & rest & E & Hp & Hdone). split; [exact Hl|].
    destruct Hp as [Hp|(d & s & rest' & _ & Hp)]; [|discriminate].
    destruct rest as [|[d s] rest']; cbn in Hp; [discriminate|]. injection Hp as -> -> ->.
    exists done, ((d, s) :: rest'). split; [exact E|]. split; [|exact Hdone]. right. exists d, s, rest'. split; [reflexivity|].
    rewrite (HU a s); [reflexivity|]. right. intros e He. apply (Hsrc d s e); [|exact He].
    apply Hl. rewrite E. apply in_or_app. cbn. auto.
  - apply Forall2_app_inv_r in HF. destruct HF as (l1 & l2 & F1 & F2 & EL). inversion F2 as [|x y l2' r' Hx Hr]; subst.
    destruct Hx as (Hl & done & rest & E & Hp & Hdone).
    destruct Hp as [Hp|(d & s & rest' & E2 & Hp)]; [destruct rest as [|[? ?] ?]; discriminate|].
    injection Hp as -> -> -> ->.
    assert (In (d, s) P) as Hd by (apply Hl; rewrite E, E2; apply in_or_app; cbn; auto).
    split; cbn [fst snd].
    + rewrite EL. apply Forall2_app; [apply Forall2_put; assumption|]. constructor; [|apply Forall2_put; assumption].
      split; [exact Hl|]. exists (done ++ [(d, s)]), rest'. split; [rewrite E, E2, <- app_assoc; reflexivity|]. split; [left; reflexivity|].
      intros d' s' H'. unfold put. rewrite Z.eqb_refl. destruct (Z.eqb_spec d' d) as [->|Ne]; cbn [andb].
      * f_equal. apply (Hfun d); [exact Hd|]. apply Hl. rewrite E, E2. apply in_app_or in H'.
        apply in_or_app. destruct H' as [H'|[H'|[]]]; [left; exact H'|right; left; exact H'].
      * apply in_app_or in H'. destruct H' as [H'|[H'|[]]]; [auto|]. congruence.
    + intros b j Hb. unfold put. destruct (Z.eqb_spec b a) as [->|]; cbn [andb]; [|apply HU; auto].
      destruct (Z.eqb_spec j d) as [->|]; [|apply HU; exact Hb]. destruct Hb as [Hb|Hb]; [congruence|]. destruct (Hb s Hd).
Qed.
Lemma cinv_steps n : forall st st', cinv st -> psteps size n st st' -> cinv st'.
Proof. induction n; intros st st' H Hs; inversion Hs; subst; auto. eapply IHn; [eapply cinv_step; eauto|eassumption]. Qed.
Lemma cinv_start : cinv (m0, map copies Ls).
Proof.
  split; [|intros b i _; reflexivity]. cbn [fst snd].
  assert (forall l, incl l Ls -> Forall2 (tstate m0) l (map copies l)) as G; [|apply G, incl_refl].
  induction l as [|x l IH]; intros Hl; cbn; constructor; [|apply IH; intros y Hy; apply Hl; cbn; auto].
  split.
  - intros y Hy. unfold P. apply in_concat. exists x. split; [apply Hl; cbn; auto|exact Hy].
  - exists [], x. split; [reflexivity|]. split; [auto|]. intros ? ? [].
Qed.

Definition copied (m' : shared A) : Prop :=
  (forall d s, In (d, s) P -> m' a d = m0 a s) /\ untouched m'.

Lemma cinv_end m' xss : cinv (m', map Ret xss) -> concat xss = [] /\ copied m'.
Proof.
  intros (HF & HU). cbn [fst snd] in *.
  assert (forall ls yss, Forall2 (tstate m') ls (map Ret yss) ->
    concat yss = [] /\ forall d s, In (d, s) (concat ls) -> m' a d = m0 a s) as G.
  { induction ls as [|l ls IH]; intros [|ys yss] F; cbn in F; inversion F; subst; cbn; [split; [reflexivity|intros ? ? []]|].
    destruct (IH _ H4) as [E G]. destruct H2 as (_ & done & rest & E1 & Hp & Hd).
    destruct Hp as [Hp|(? & ? & ? & _ & Hp)]; [|discriminate]. destruct rest as [|[? ?] ?]; cbn in Hp; [|discriminate].
    injection Hp as ->. rewrite E. split; [reflexivity|]. rewrite app_nil_r in E1. subst l.
    intros d s Hds. apply in_app_or in Hds. destruct Hds; eauto. }
  destruct (G _ _ HF) as [E1 E2]. split; [exact E1|]. split; [exact E2|exact HU].
Qed.

Lemma tstate_of m ls ps p l r : Forall2 (tstate m) ls ps -> ps = l ++ p :: r -> exists x, In x ls /\ tstate m x p.
Proof.
  intros F ->. apply Forall2_app_inv_r in F. destruct F as (l1 & l2 & _ & F2 & ->). inversion F2; subst.
  exists x. split; [apply in_or_app; cbn; auto|assumption].
Qed.
Lemma cinv_not_bad st : cinv st -> ~ bad_state size st.
Proof.
  assert (forall m x p w b i, tstate m x p -> next p = Some (w, b, i) ->
    b = a /\ exists d s, In (d, s) P /\ ((w = false /\ i = s) \/ (w = true /\ i = d /\ exists k, p = Store a d (m0 a s) k))) as N.
  { intros m x p w b i (Hl & done & rest & E & Hp & _) Hn. destruct Hp as [->|(d & s & rest' & E2 & ->)].
    - destruct rest as [|[d s] rest']; cbn in Hn; [discriminate|]. injection Hn as <- <- <-. split; [reflexivity|].
      exists d, s. split; [apply Hl; rewrite E; apply in_or_app; cbn; auto|auto].
    - cbn in Hn. injection Hn as <- <- <-. split; [reflexivity|].
      exists d, s. split; [apply Hl; rewrite E, E2; apply in_or_app; cbn; auto|]. right. eauto. }
  intros (HF & HU) B. destruct B as [m l r|m l p r w b i Hn Hi|m l p c q r w w' b i Hp Hq Hw Hs]; cbn [fst snd] in *.
  - destruct (tstate_of _ _ _ _ _ _ HF eq_refl) as (x & _ & _ & done & rest & _ & Hp & _).
    destruct Hp as [Hp|(? & ? & ? & _ & Hp)]; [|discriminate]. destruct rest as [|[? ?] ?]; discriminate.
  - destruct (tstate_of _ _ _ _ _ _ HF eq_refl) as (x & _ & Hx). destruct (N _ _ _ _ _ _ Hx Hn) as (-> & d & s & Hd & C).
    destruct (Hin _ _ Hd) as [I1 I2]. destruct C as [(_ & ->)|(_ & -> & _)]; congruence.
  - destruct (tstate_of _ _ _ _ _ _ HF eq_refl) as (x & _ & Hx).
    destruct (tstate_of _ _ _ q (l ++ p :: c) r HF ltac:(rewrite <- app_assoc; reflexivity)) as (y & _ & Hy).
    destruct (N _ _ _ _ _ _ Hx Hp) as (-> & d & s & Hd & C). destruct (N _ _ _ _ _ _ Hy Hq) as (_ & d' & s' & Hd' & C').
    destruct C as [(-> & E1)|(-> & E1 & k & Ep)], C' as [(-> & E2)|(-> & E2 & k' & Eq)]; try discriminate; subst.
    + apply (Hsrc _ _ s' Hd). exact Hd'.
    + apply (Hsrc _ _ s Hd'). exact Hd.
    + apply Hs. cbn. split; [reflexivity|]. split; [reflexivity|]. f_equal. apply (Hfun d'); assumption.
Qed.

Lemma run_copies l : incl l P -> forall m, exists m', run size (copies l) m = Ok (m', []).
Proof.
  induction l as [|[d s] l IH]; intros Hl m; cbn; [eauto|].
  destruct (Hin d s) as [-> ->]; [apply Hl; cbn; auto|]. apply IH. intros y Hy. apply Hl. cbn; auto.
Qed.
Lemma copies_outcomes :
  (exists m', lenient size (map copies Ls) m0 (Ok (m', []))) /\
  forall r, lenient size (map copies Ls) m0 r -> exists m', r = Ok (m', []) /\ copied m'.
Proof.
  split.
  - assert (forall ls, incl ls Ls -> forall m, exists m',
      fold_res (fun p s => r <- run size p (fst s);; Ok (fst r, snd s ++ snd r)) (map copies ls) (m, []) = Ok (m', [])) as G.
    { induction ls as [|l ls IH]; intros Hl m; cbn; [eauto|].
      destruct (run_copies l) with (m := m) as (m1 & ->).
      { intros y Hy. unfold P. apply in_concat. exists l. split; [apply Hl; cbn; auto|exact Hy]. }
      cbn. apply IH. intros y Hy. apply Hl; cbn; auto. }
    destruct (G Ls (incl_refl _) m0) as (m' & E). exists m'.
    destruct (run_loop_psteps size _ _ _ _ _ E []) as (n & xss & Hn & Hx). cbn in Hn, Hx. rewrite Hx. econstructor. exact Hn.
  - intros r Hr. destruct Hr as [n m' xss Hn|n s Hn Hb].
    + destruct (cinv_end m' xss (cinv_steps _ _ _ cinv_start Hn)) as [-> Hc]. eauto.
    + destruct (cinv_not_bad _ (cinv_steps _ _ _ cinv_start Hn) Hb).
Qed.
End Copies.

(** * Launches one after the other *)
Section AllOk.
Context {A X : Type} (size : Z -> Z).
Fixpoint all_ok (pss : list (list (prog A X))) (m : shared A) (Q : shared A -> Prop) : Prop :=
  match pss with
  | [] => Q m
  | ps :: pss' => (exists m', lenient size ps m (Ok (m', []))) /\
      forall r, lenient size ps m r -> exists m', r = Ok (m', []) /\ all_ok pss' m' Q
  end.
Lemma all_ok_app pss qss (Q1 Q2 : shared A -> Prop) : (forall m1, Q1 m1 -> all_ok qss m1 Q2) ->
  forall m, all_ok pss m Q1 -> all_ok (pss ++ qss) m Q2.
Proof.
  intros H2. induction pss as [|ps pss IH]; cbn; intros m H; [auto|]. destruct H as [E G]. split; [exact E|].
  intros r Hr. destruct (G r Hr) as (m' & -> & H). eauto.
Qed.
Lemma all_ok_lenients pss (Q : shared A -> Prop) : forall m, all_ok pss m Q ->
  (exists m', lenients size pss m (Ok (m', []))) /\
  forall r, lenients size pss m r -> exists m', r = Ok (m', []) /\ Q m'.
Proof.
  induction pss as [|ps pss IH]; cbn; intros m H.
  - split; [exists m; constructor|]. intros r Hr. inversion Hr; subst. eauto.
  - destruct H as [(m1 & E) G]. split.
    + destruct (G _ E) as (m1' & Ex & H). injection Ex as <-. destruct (IH _ H) as ((m2 & E2) & _).
      exists m2. change (Ok (m2, [])) with (Ok (m2, @nil X ++ [])). econstructor; eassumption.
    + intros r Hr. inversion Hr; subst; match goal with K : lenient _ _ _ _ |- _ => destruct (G _ K) as (x & Ex & H) end;
        [discriminate| |]; injection Ex as -> ->; destruct (IH _ H) as (_ & F).
      * match goal with K : lenients _ _ _ _ |- _ => destruct (F _ K) as (? & Ey & _) end. discriminate.
      * match goal with K : lenients _ _ _ _ |- _ => destruct (F _ K) as (y & Ey & q) end. injection Ey as -> ->. eauto.
Qed.
End AllOk.

(** * One launch *)
Definition incell (E : ivec) (c : cell) : Prop :=
  let '(x, y, z) := c in 0 <= x < E 0 /\ 0 <= y < E 1 /\ 0 <= z < E 2.
Lemma place_inside E c : incell E c -> 0 <= place E c < E 0 * E 1 * E 2.
Proof.
  destruct c as [[x y] z]. unfold incell, place. intros (Hx & Hy & Hz).
  assert (0 <= z * (E 0 * E 1)) by (apply Z.mul_nonneg_nonneg; [lia|apply Z.mul_nonneg_nonneg; lia]).
  assert (0 <= y * E 0) by (apply Z.mul_nonneg_nonneg; lia).
  assert (z * (E 0 * E 1) <= (E 2 - 1) * (E 0 * E 1)) by (apply Z.mul_le_mono_nonneg_r; [apply Z.mul_nonneg_nonneg; lia|lia]).
  assert (y * E 0 <= (E 1 - 1) * E 0) by (apply Z.mul_le_mono_nonneg_r; lia). lia.
Qed.
Lemma place_inj E c c' : incell E c -> incell E c' -> place E c = place E c' -> c = c'.
Proof.
  destruct c as [[x y] z], c' as [[x' y'] z']. unfold incell, place. intros (Hx & Hy & Hz) (Hx' & Hy' & Hz') H.
  assert (D : forall q r q' r' m, 0 <= r < m -> 0 <= r' < m -> q * m + r = q' * m + r' -> q = q' /\ r = r').
  { intros q r q' r' k Hr Hr' K. assert (q = q') by nia. subst. split; [reflexivity|lia]. }
  destruct (D (z * E 1 + y) x (z' * E 1 + y') x' (E 0)) as [H1 ->]; [lia|lia|lia|].
  destruct (D z y z' y' (E 1)) as [-> ->]; [lia|lia|lia|]. reflexivity.
Qed.

Definition im_of (kind : bc_kind) : Z -> Z -> Z -> Z :=
  match kind with CudaNeumann => mirror1 | CudaPeriodic => periodic1 end.

Section Sweep.
Context {A : Type}.
Variables (kind : bc_kind) (g : Z) (E : ivec) (a d i n : Z).
Hypothesis Hd : d = 0 \/ d = 1 \/ d = 2.
Hypothesis Hi : i = 0 \/ i = 1.
Hypothesis Hg : 0 <= g <= n.
Hypothesis Hn : 0 < n.
Hypothesis HE : E d = n + 2 * g.
Hypothesis P0 : 0 < E 0.
Hypothesis P1 : 0 < E 1.
Hypothesis P2 : 0 < E 2.

Let top := i =? 1.
Let xd := d =? 0.
Let yd := d =? 1.
Let zd := d =? 2.
Let nx := if xd then 1 else E 0.
Let ny := if yd then 1 else E 1.
Let nz := if zd then 1 else E 2.
Let im := im_of kind g n.
Let st := if i =? 0 then g else n + g - 1.
Let sg := if i =? 0 then 1 else -1.

Definition base (t : Z) : cell :=
  ((if xd then 0 else t mod nx) + b2z xd * (g + (E 0 - 2 * g - 1) * b2z top),
   (if yd then 0 else (t / nx) mod ny) + b2z yd * (g + (E 1 - 2 * g - 1) * b2z top),
   (if zd then 0 else Z.min (t / (nx * ny)) (nz - 1)) + b2z zd * (g + (E 2 - 2 * g - 1) * b2z top)).
Definition pair_of (c : cell) (k : Z) : Z * Z :=
  let c' := setd d (st - sg * k) c in (place E c', place E (setd d (im (st - sg * k)) c')).
Definition pairs (t : Z) : list (Z * Z) :=
  if nx * ny * nz <? t then [] else map (pair_of (base t)) (zrange 1 (g + 1)).

Lemma im_range t : 0 <= t < n + 2 * g -> g <= im t < g + n.
Proof.
  intros Ht. unfold im, im_of. destruct kind; [apply mirror1_range; lia|apply periodic1_range; lia].
Qed.
Lemma base_in t : 0 <= t -> incell E (base t) /\ getd d (base t) = st.
Proof.
  intros Ht. unfold incell, base, getd, st, top, nx, ny, nz, xd, yd, zd.
  assert (0 <= t mod E 0 < E 0) by (apply Z.mod_pos_bound; lia).
  assert (forall q, 0 <= q mod E 1 < E 1) by (intros; apply Z.mod_pos_bound; lia).
  destruct Hd as [->|[->| ->]], Hi as [->| ->]; cbn [Z.eqb Pos.eqb b2z];
  repeat match goal with |- context [Z.min (t / ?q) _] => assert (0 <= t / q) by (apply Z.div_pos; [lia|]; try lia; apply Z.mul_pos_pos; lia); generalize dependent (t / q); intros end;
  repeat match goal with |- context [?q mod E 1] => pose proof (H0 q); generalize dependent (q mod E 1); intros end;
  lia.
Qed.

Lemma thread_copies t : 0 <= t -> bc_thread (A := A) g E kind a top xd yd zd t = copies a (pairs t).
Proof.
  intros Ht. unfold bc_thread, pairs. fold nx ny nz. destruct (nx * ny * nz <? t); [reflexivity|].
  destruct (base_in t Ht) as (Hb & Hs). cbv zeta.
  set (bx := (if xd then 0 else t mod nx) + _). set (by_ := (if yd then 0 else (t / nx) mod ny) + _).
  set (bz := (if zd then 0 else Z.min (t / (nx * ny)) (nz - 1)) + _).
  change (base t) with (bx, by_, bz) in *. clearbody bx by_ bz.
  assert (forall l, (forall k, In k l -> 1 <= k <= g) ->
    fold_right (fun k rest => bc_apply (A := A) g E kind a bx by_ bz k top xd yd zd rest) (Ret []) l =
    copies a (map (pair_of (bx, by_, bz)) l)) as G; [|apply G; intros k Hk; apply zrange_In in Hk; lia].
  induction l as [|k l IH]; intros Hl; [reflexivity|]. cbn [fold_right map copies].
  rewrite IH by (intros; apply Hl; cbn; auto). specialize (Hl k (or_introl eq_refl)).
  generalize (map (pair_of (bx, by_, bz)) l). intros rest. clear IH.
  unfold pair_of. cbn [copies]. unfold bc_apply, pload, pstore. cbv zeta.
  assert (Kr : g <= im (st - sg * k) < g + n).
  { apply im_range. unfold st, sg. destruct Hi as [Ei|Ei]; rewrite Ei; cbn [Z.eqb Pos.eqb]; lia. }
  assert (Ko : im (st - sg * k) = st + (if top then -1 else 1) *
     match kind with CudaNeumann => k - 1 | CudaPeriodic => - k + (E d - 2 * g) end).
  { rewrite HE. clear Kr. unfold im, im_of, st, sg, top. destruct kind, Hi as [Ei|Ei]; rewrite Ei; cbn [Z.eqb Pos.eqb].
    - unfold mirror1. destruct (Z.ltb_spec (g - 1 * k) g); lia.
    - unfold mirror1. destruct (Z.ltb_spec (n + g - 1 - -1 * k) g), (Z.leb_spec (g + n) (n + g - 1 - -1 * k)); lia.
    - rewrite periodic1_low; lia.
    - rewrite periodic1_high; lia. }
  assert (Ks : sg = if top then -1 else 1).
  { unfold sg, top. destruct Hi as [Ei|Ei]; rewrite Ei; reflexivity. }
  assert (Kd : 0 <= st - sg * k < E d).
  { rewrite HE. unfold st, sg. destruct Hi as [Ei|Ei]; rewrite Ei; cbn [Z.eqb Pos.eqb]; lia. }
  rewrite Ks in *. clear Ks. unfold incell in Hb. revert Hb Hs Kr Ko Kd.
  generalize (im (st - (if top then -1 else 1) * k)) as q. intros q Hb Hs Kr Ko Kd. clearbody st.
  clear -Hd HE Hb Hs Kr Ko Kd Hg. unfold cell_in, xd, yd, zd, getd, setd, place, index in *.
  destruct Hd as [Ed|[Ed|Ed]]; rewrite Ed in *; cbn [Z.eqb Pos.eqb b2z] in *;
  repeat match goal with |- context [?x <=? ?y] => destruct (Z.leb_spec x y); [|lia] end;
  repeat match goal with |- context [?x <? ?y] => destruct (Z.ltb_spec x y); [|lia] end; cbn [andb].
  all: f_equal; [lia|]; apply FunctionalExtensionality.functional_extensionality; intros v; f_equal; lia.
Qed.

Lemma setd_in t c : incell E c -> 0 <= t < E d -> incell E (setd d t c).
Proof.
  destruct c as [[x y] z]. unfold incell, setd. destruct Hd as [Ed|[Ed|Ed]]; rewrite Ed; cbn [Z.eqb Pos.eqb]; lia.
Qed.
Lemma getd_setd t c : getd d (setd d t c) = t.
Proof. destruct c as [[x y] z]. unfold getd, setd. destruct Hd as [Ed|[Ed|Ed]]; rewrite Ed; reflexivity. Qed.
Lemma setd_setd t t' c : setd d t (setd d t' c) = setd d t c.
Proof. destruct c as [[x y] z]. unfold setd. destruct Hd as [Ed|[Ed|Ed]]; rewrite Ed; reflexivity. Qed.
Lemma setd_getd c : setd d (getd d c) c = c.
Proof. destruct c as [[x y] z]. unfold getd, setd. destruct Hd as [Ed|[Ed|Ed]]; rewrite Ed; reflexivity. Qed.
Lemma getd_in c : incell E c -> 0 <= getd d c < E d.
Proof. destruct c as [[x y] z]. unfold incell, getd. destruct Hd as [Ed|[Ed|Ed]]; rewrite Ed; cbn [Z.eqb Pos.eqb]; lia. Qed.

Definition source (c : cell) : cell := setd d (im (getd d c)) c.
Definition target (c : cell) : Prop := incell E c /\ onside g n i (getd d c) = true.

Lemma pairs_spec t p q : 0 <= t -> In (p, q) (pairs t) -> exists c, target c /\ p = place E c /\ q = place E (source c).
Proof.
  intros Ht. unfold pairs. destruct (_ <? _); [intros []|]. intros H. apply in_map_iff in H. destruct H as (k & Ek & Hk).
  apply zrange_In in Hk. destruct (base_in t Ht) as (Hb & Hs). unfold pair_of in Ek. injection Ek as <- <-.
  exists (setd d (st - sg * k) (base t)).
  assert (0 <= st - sg * k < E d) as Hr by (rewrite HE; unfold st, sg; destruct Hi as [Ei|Ei]; rewrite Ei; cbn [Z.eqb Pos.eqb]; lia).
  split; [|split; [reflexivity|unfold source; rewrite getd_setd; reflexivity]].
  split; [apply setd_in; assumption|]. rewrite getd_setd. unfold onside, st, sg in *. destruct Hi as [Ei|Ei]; rewrite Ei in *; cbn [Z.eqb Pos.eqb].
  - apply Z.ltb_lt. lia.
  - apply Z.leb_le. lia.
Qed.

Lemma decode a0 a1 x y z : 0 <= x < a0 -> 0 <= y < a1 -> 0 <= z ->
  let t := (z * a1 + y) * a0 + x in t mod a0 = x /\ (t / a0) mod a1 = y /\ t / (a0 * a1) = z.
Proof.
  intros Hx Hy Hz. cbv zeta.
  assert (E1 : ((z * a1 + y) * a0 + x) / a0 = z * a1 + y) by (rewrite Z.add_comm, Z.div_add, Z.div_small by lia; lia).
  split; [rewrite Z.add_comm, Z.mod_add by lia; apply Z.mod_small; lia|].
  rewrite <- Z.div_div, E1 by lia. split; [rewrite Z.add_comm, Z.mod_add by lia; apply Z.mod_small; lia|].
  rewrite Z.add_comm, Z.div_add, Z.div_small by lia. lia.
Qed.

Lemma pairs_all c : target c -> exists t, 0 <= t < threads 1024 (nx * ny * nz) /\ In (place E c, place E (source c)) (pairs t).
Proof.
  intros (Hc & Ho). destruct c as [[x y] z].
  set (x' := if xd then 0 else x). set (y' := if yd then 0 else y). set (z' := if zd then 0 else z).
  assert (B : 0 <= x' < nx /\ 0 <= y' < ny /\ 0 <= z' < nz).
  { unfold incell in Hc. unfold x', y', z', nx, ny, nz. destruct xd, yd, zd; lia. }
  exists ((z' * ny + y') * nx + x').
  destruct (decode nx ny x' y' z') as (D0 & D1 & D2); [lia|lia|lia|]. cbv zeta in D0, D1, D2.
  set (t := (z' * ny + y') * nx + x') in *.
  assert (0 <= (z' * ny + y') * nx) by (apply Z.mul_nonneg_nonneg; [|lia]; assert (0 <= z' * ny) by (apply Z.mul_nonneg_nonneg; lia); lia).
  assert (Ht : 0 <= t < nx * ny * nz).
  { assert (z' * ny <= (nz - 1) * ny) by (apply Z.mul_le_mono_nonneg_r; lia).
    assert ((z' * ny + y') * nx <= (nz * ny - 1) * nx) by (apply Z.mul_le_mono_nonneg_r; lia). unfold t. lia. }
  pose proof (threads_ge 1024 (nx * ny * nz) ltac:(lia) ltac:(lia)). split; [lia|].
  unfold pairs. destruct (Z.ltb_spec (nx * ny * nz) t); [lia|].
  assert (Hb : base t = setd d st (x, y, z)).
  { unfold base. rewrite D0, D1, D2. rewrite Z.min_l by lia. unfold x', y', z', setd, st, top, xd, yd, zd.
    destruct Hd as [Ed|[Ed|Ed]]; rewrite Ed in *; destruct Hi as [Ei|Ei]; rewrite Ei; cbn [Z.eqb Pos.eqb b2z]; (apply f_equal2; [apply f_equal2|]; try rewrite HE; lia). }
  set (c := (x, y, z)) in *. pose proof (getd_in c Hc) as Hr. rewrite HE in Hr.
  set (k := sg * (st - getd d c)).
  assert (Hk : st - sg * k = getd d c).
  { unfold k, sg. destruct (i =? 0); lia. }
  apply in_map_iff. exists k. split.
  - unfold pair_of. rewrite Hk, Hb, !setd_setd, setd_getd. reflexivity.
  - apply zrange_In. unfold k, sg, st, onside in *. destruct Hi as [Ei|Ei]; rewrite Ei in *; cbn [Z.eqb Pos.eqb] in *.
    + apply Z.ltb_lt in Ho. lia.
    + apply Z.leb_le in Ho. lia.
Qed.

Lemma source_in c : incell E c -> incell E (source c) /\ onside g n i (getd d (source c)) = false.
Proof.
  intros Hc. pose proof (getd_in c Hc) as Hr. rewrite HE in Hr. pose proof (im_range _ Hr) as Hq. unfold source. split.
  - apply setd_in; [exact Hc|]. rewrite HE. lia.
  - rewrite getd_setd. unfold onside. destruct (i =? 0); [apply Z.ltb_ge|apply Z.leb_gt]; lia.
Qed.

Variable size : Z -> Z.
Hypothesis Hsize : size a = E 0 * E 1 * E 2.

Lemma launch_outcomes (m : shared A) :
  (exists m', lenient size (bc_launch (A := A) g E kind a d i) m (Ok (m', []))) /\
  forall r, lenient size (bc_launch (A := A) g E kind a d i) m r -> exists m', r = Ok (m', []) /\
    (forall b j, b <> a -> m' b j = m b j) /\
    forall c, incell E c -> m' a (place E c) = m a (place E (if onside g n i (getd d c) then source c else c)).
Proof.
  set (Ls := map pairs (zrange 0 (threads 1024 (nx * ny * nz)))).
  assert (EL : bc_launch (A := A) g E kind a d i = map (copies a) Ls).
  { unfold bc_launch, Ls. rewrite map_map. apply map_ext_in. intros t Ht. apply zrange_In in Ht. apply thread_copies. lia. }
  assert (S : forall p q, In (p, q) (concat Ls) -> exists c, target c /\ p = place E c /\ q = place E (source c)).
  { intros p q H. apply in_concat in H. destruct H as (l & Hl & H). apply in_map_iff in Hl. destruct Hl as (t & <- & Ht).
    apply zrange_In in Ht. eapply pairs_spec; [|exact H]. lia. }
  assert (I : forall c, incell E c -> inside size a (place E c) = true).
  { intros c Hc. pose proof (place_inside E c Hc). unfold inside. rewrite Hsize. apply andb_true_intro.
    split; [apply Z.leb_le|apply Z.ltb_lt]; lia. }
  rewrite EL.
  destruct (copies_outcomes (A := A) (X := unit) size a Ls) with (m0 := m) as (X1 & X2).
  - intros p q H. destruct (S p q H) as (c & Hc & -> & ->). split; apply I; [apply Hc|apply source_in, Hc].
  - intros p q q' H H'. destruct (S _ _ H) as (c & Hc & E1 & ->), (S _ _ H') as (c' & Hc' & E2 & ->).
    rewrite (place_inj E c c'); [reflexivity|apply Hc|apply Hc'|congruence].
  - intros p q e H H'. destruct (S _ _ H) as (c & Hc & _ & ->), (S _ _ H') as (c' & Hc' & E2 & _).
    apply place_inj in E2; [|apply source_in, Hc|apply Hc']. destruct (source_in c) as [_ F]; [apply Hc|].
    rewrite E2 in F. destruct Hc' as [_ F']. congruence.
  - split; [exact X1|]. intros r Hr. destruct (X2 r Hr) as (m' & -> & C & U). exists m'. split; [reflexivity|].
    split; [intros b j Hb; apply U; auto|]. intros c Hc. destruct (onside g n i (getd d c)) eqn:Ho.
    + destruct (pairs_all c) as (t & Ht & Hp); [split; assumption|]. apply C. apply in_concat. exists (pairs t).
      split; [|exact Hp]. apply in_map. apply zrange_In. exact Ht.
    + apply U. right. intros q H. destruct (S _ _ H) as (c' & Hc' & E1 & _). apply place_inj in E1; [|exact Hc|apply Hc'].
      subst c'. destruct Hc'. congruence.
Qed.
End Sweep.
