(** Lemmas about the admissibility check. *)
From Coq Require Import ZArith Reals List Bool Lia Lra.
From Flocq Require Import Core BinarySingleNaN.
From Verif Require Import M_Base M_Foreach L_Base L_Foreach M_Sim M_TimeFloat M_Check S_Check.
Import ListNotations.
Open Scope Z_scope.

Lemma bad_finite (x : f64) : bad x = false <-> is_finite x = true.
Proof. destruct x; cbn; split; intros; try reflexivity; discriminate. Qed.

Lemma fold_bad l o :
  fold_left (fun (o : bool) (x : f64) => if bad x then false else o) l o = true <->
  o = true /\ (forall x, In x l -> is_finite x = true).
Proof.
  revert o. induction l as [|a l IH]; intros o; cbn [fold_left].
  - split; [intros ->; split; auto; intros x []|tauto].
  - rewrite IH. destruct (bad a) eqn:B.
    + split; [intros [H _]; discriminate|]. intros [_ H].
      specialize (H a (or_introl eq_refl)). apply bad_finite in H. congruence.
    + apply bad_finite in B. split; intros [-> H]; split; auto; intros x Hx.
      * destruct Hx as [<-|Hx]; auto.
      * apply H. now right.
Qed.

Definition cell_obeys (eq : feq_) (c : list f64) : Prop :=
  (forall x, In x c -> is_finite x = true) /\
  (forall x, In x (fe_extra eq c) -> is_finite x = true) /\
  fe_obeys eq c (fe_extra eq c) = true.

Lemma fold_obeys eq v (l : list Z) o :
  (forall i, In i l -> 0 <= i < vnx v * vny v * vnz v) ->
  exists b, fold_res (fun i (obeys : bool) =>
       if (0 <=? i) && (i <? vnx v * vny v * vnz v) then
         let c := vdat v i in
         let ex := fe_extra eq c in
         let obeys := fold_left (fun o x => if bad x then false else o) c obeys in
         let obeys := fold_left (fun o x => if bad x then false else o) ex obeys in
         Ok (if negb (fe_obeys eq c ex) then false else obeys)
       else UB) l o = Ok b /\
    (b = true <-> o = true /\ forall i, In i l -> cell_obeys eq (vdat v i)).
Proof.
  revert o. induction l as [|i l IH]; intros o H; cbn [fold_res].
  - exists o. split; [reflexivity|]. split; [intros ->; split; auto; intros i []|tauto].
  - assert (Hi : 0 <= i < vnx v * vny v * vnz v) by (apply H; now left).
    replace ((0 <=? i) && (i <? vnx v * vny v * vnz v)) with true
      by (symmetry; apply andb_true_intro; split; [apply Z.leb_le|apply Z.ltb_lt]; lia).
    cbv zeta. cbn [bind].
    match goal with |- context [fold_res _ l ?b] => set (o1 := b) end.
    destruct (IH o1) as (b & E & Q); [intros; apply H; now right|].
    exists b. split; [exact E|]. rewrite Q.
    assert (O1 : o1 = true <-> o = true /\ cell_obeys eq (vdat v i)).
    { unfold o1, cell_obeys. destruct (fe_obeys eq (vdat v i) (fe_extra eq (vdat v i))); cbn [negb].
      - rewrite !fold_bad. tauto.
      - split; [discriminate|]. intros (_ & _ & _ & ?). congruence. }
    rewrite O1. split.
    + intros [[A B] C]. split; auto. intros j [<-|Hj]; auto.
    + intros [A B]. split; [split; auto; apply B; now left|]. intros j Hj. apply B. now right.
Qed.

Lemma obeys_spec eq (v : vol (list f64)) :
  1 <= vnx v -> 1 <= vny v -> 1 <= vnz v -> vnx v * vny v * vnz v < two64 ->
  exists b, obeys_constraints eq v = Ok b /\ (b = true <-> all_cells (cell_obeys eq) v).
Proof.
  intros H1 H2 H3 H4.
  destruct (for_each_visits (vnx v) (vny v) (vnz v) 0 0 0 0 0 0 H1 H2 H3 H4) as (vis & _ & In1 & Ran & Eq);
    try lia; try (unfold two64; lia).
  unfold obeys_constraints. rewrite Eq.
  destruct (fold_obeys eq v vis true Ran) as (b & E & Q). exists b. split; [exact E|]. rewrite Q.
  split.
  - intros [_ H] x y z Hx Hy Hz. unfold vget, index. apply H. apply In1. exists x, y, z.
    repeat split; try lia. 
  - intros H. split; auto. intros i Hi. apply In1 in Hi. destruct Hi as (x & y & z & Hx & Hy & Hz & ->).
    specialize (H x y z). unfold vget, index in H.
    replace (z * (vnx v * vny v) + y * vnx v + x) with (z * vnx v * vny v + y * vnx v + x) by ring. apply H; lia.
Qed.

Lemma fgt_pos (x : f64) : is_finite x = true -> (fgt x fzero = true <-> (0 < B2R x)%R).
Proof.
  intros F. unfold fgt. rewrite Bltb_correct by (auto; reflexivity). change (B2R fzero) with 0%R.
  destruct (Rlt_bool_spec 0 (B2R x)); split; auto; try discriminate. intros. lra.
Qed.
Lemma feq_finite (x : f64) : is_finite x = true -> feq x x = true.
Proof. intros F. unfold feq. rewrite Beqb_correct by auto. now apply Req_bool_true. Qed.
Lemma flt_inf (x : f64) : is_finite x = true -> Bltb x finfty = true.
Proof. destruct x as [[]| | |[] m e B]; try discriminate; reflexivity. Qed.

Lemma scalar_obeys c : length c = 1%nat -> (cell_obeys fe_scalar c <-> scalar_admissible c).
Proof.
  intros L. destruct c as [|u [|]]; try discriminate. unfold cell_obeys, scalar_admissible.
  cbn [fe_scalar fe_extra fe_obeys]. split.
  - intros (H & _ & _). exists u. split; auto. apply H. now left.
  - intros (x & E & F). injection E as <-. repeat split.
    + intros y [<-|[]]. exact F.
    + intros y [].
    + now rewrite flt_inf, feq_finite.
Qed.

Lemma euler_obeys gamma d c : length c = (d + 2)%nat ->
  (cell_obeys (fe_euler gamma) c <-> euler_admissible gamma d c).
Proof.
  intros L. destruct c as [|rho rest]; [simpl in L; lia|].
  assert (R : rest <> []) by (destruct rest; [simpl in L; lia|discriminate]).
  destruct (exists_last R) as (m & E & Er).
  assert (Lm : length m = d) by (subst rest; rewrite ?app_length in L; simpl in L; rewrite ?app_length in L; simpl in L; lia).
  subst rest. unfold cell_obeys, euler_admissible. cbn [fe_euler fe_extra fe_obeys].
  rewrite removelast_last, last_last. change (fmul (fsub gamma (fofZ 1)) (fsub E (fdiv (fmul fhalf (fdot m)) rho))) with (fpressure gamma rho m E).
  split.
  - intros (H1 & H2 & H3). exists rho, m, E. apply andb_prop in H3. destruct H3 as [H3 Hp].
    apply andb_prop in H3. destruct H3 as [_ Hr].
    assert (F1 : is_finite rho = true) by (apply H1; now left).
    assert (F2 : is_finite (fpressure gamma rho m E) = true) by (apply H2; now left).
    rewrite fgt_pos in Hr, Hp by auto.
    split; [reflexivity|]. split; [exact Lm|]. split; [exact F1|].
    split; [apply H1; right; apply in_app_iff; right; now left|].
    split; [intros x Hx; apply H1; right; apply in_app_iff; now left|].
    split; [intros x Hx; apply H2; right; now apply (in_map (fun a => fdiv a rho))|]. auto.
  - intros (rho' & m' & E' & Q & _ & F1 & FE & Fm & Fd & Pr & Fp & Pp).
    injection Q as <- Q. apply app_inj_tail in Q. destruct Q as [<- <-]. split; [|split].
    + intros x [<-|Hx]; auto. apply in_app_iff in Hx. destruct Hx as [Hx|[<-|[]]]; auto.
    + intros x [<-|Hx]; auto. apply in_map_iff in Hx. destruct Hx as (y & <- & Hy). auto.
    + rewrite F1, feq_finite by auto. cbn [andb].
      apply andb_true_intro. split; apply fgt_pos; auto.
Qed.

Section Run.
Context {St : Type} (inc : St -> res St) (front : St -> res (vol (list f64))) (eq : feq_).
Lemma logging_run_log n st st' l : logging_run inc front eq n st = Ok (st', l) ->
  length l = n /\ (forall v, In v l -> obeys_bool eq v = true) /\
  (forall k v, nth_error l k = Some v ->
     exists s, fold_res (fun _ => checked_step inc front (obeys_bool eq)) (seq 0 (S k)) st = Ok s /\ front s = Ok v).
Proof.
  unfold logging_run. revert st' l. induction n as [|n IH]; intros st' l.
  - cbn. intros E. injection E as <- <-. split; [reflexivity|]. split; [intros v []|]. intros [|k] v; discriminate.
  - rewrite seq_S, fold_res_app. destruct (fold_res _ (seq 0 n) (st, [])) as [[s1 l1]| |] eqn:E1; cbn [bind]; try discriminate.
    destruct (IH _ _ eq_refl) as (L & A & B). cbn [fold_res]. unfold logging_step at 1. cbn [fst snd].
    destruct (checked_step inc front (obeys_bool eq) s1) as [s2| |] eqn:E2; cbn [bind]; try discriminate.
    destruct (front s2) as [u| |] eqn:E3; cbn [bind]; try discriminate.
    intros E. injection E as <- <-. 
    assert (Ou : obeys_bool eq u = true).
    { unfold checked_step in E2. destruct (inc s1) as [s3| |]; cbn [bind] in E2; try discriminate.
      destruct (front s3) as [u3| |] eqn:E4; cbn [bind] in E2; try discriminate.
      destruct (obeys_bool eq u3) eqn:E5; try discriminate. injection E2 as <-. congruence. }
    split; [rewrite app_length; simpl; lia|]. split.
    + intros v Hv. apply in_app_iff in Hv. destruct Hv as [Hv|[<-|[]]]; auto.
    + intros k v Hk. destruct (Nat.lt_ge_cases k n) as [Lk|Lk].
      * rewrite nth_error_app1 in Hk by lia. now apply B.
      * rewrite nth_error_app2 in Hk by lia. destruct (k - length l1)%nat as [|j] eqn:Ek; [|destruct j; discriminate].
        injection Hk as <-. assert (k = n) by lia. subst k. exists s2. split; [|exact E3].
        rewrite seq_S, fold_res_app.
        assert (P : forall (m : list nat) s a, fold_res (fun _ => logging_step inc front eq) m (st, []) = Ok (s, a) ->
                    fold_res (fun _ => checked_step inc front (obeys_bool eq)) m st = Ok s).
        { clear. intros m. generalize (@nil (vol (list f64))) as l0. revert st.
          induction m as [|i m IH]; intros st l0 s a; cbn [fold_res].
          - intros E. now injection E as <- _.
          - unfold logging_step at 1. cbn [fst snd].
            destruct (checked_step inc front (obeys_bool eq) st) as [s2| |]; cbn [bind]; try discriminate.
            destruct (front s2); cbn [bind]; try discriminate. apply IH. }
        rewrite (P _ _ _ E1). cbn [bind fold_res]. rewrite E2. reflexivity.
Qed.
Lemma checked_rejects st st' u : inc st = Ok st' -> front st' = Ok u -> obeys_bool eq u = false ->
  checked_step inc front (obeys_bool eq) st = Throw.
Proof. intros E1 E2 E3. unfold checked_step. rewrite E1. cbn [bind]. rewrite E2. cbn [bind]. now rewrite E3. Qed.
End Run.
