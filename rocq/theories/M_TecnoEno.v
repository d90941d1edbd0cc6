(** ENO reconstruction of the scaled entropy variables for the TeCNO diffusion. *)
From Coq Require Import ZArith Reals List Bool.
From Verif Require Import M_Base M_Vec M_Boundary M_Flux M_Scalar M_Recon M_Eno M_Diffusion.
Import ListNotations.
Open Scope Z_scope.

(** Access through a raw pointer: the offset is not split into coordinates. *)
Definition vflat {A} (v : vol A) (i : Z) : res A :=
  if (0 <=? i) && (i <? size3 v) then Ok (vdat v i) else UB.

(** tecno::ENOCPU::computeDividedDifferences,
    /repo/alsfvm/src/reconstruction/tecno/ENOCPU.cpp lines 195-243; [n] are the
    extents of the inputs.  The asserts of lines 210-212 are kept. *)
Definition tecno_differences (d level : Z) (n : Z -> Z) (left right : Z -> Z -> Z -> res R) (output : vol R)
  : res (vol R) :=
  let e := unit_ d in
  if forallb (fun k => 2 * e k * level <? n k) [0; 1; 2] then
    let lo k := e k * level in
    let hi k := n k - e k * level in
    for3 (lo 2) (hi 2) (lo 1) (hi 1) (lo 0) (hi 0) (fun x y z out =>
      r <- left x y z;;
      l <- right (x - e 0) (y - e 1) (z - e 2);;
      vstore out (x - e 0) (y - e 1) (z - e 2) (r - l)%R) output
  else UB.

(** Lines 63-73. *)
Fixpoint tecno_levels (d level : Z) (n : Z -> Z) (left right : Z -> Z -> Z -> res R) (scratch : list (vol R))
  : res (list (vol R)) :=
  match scratch with
  | [] => Ok []
  | w :: ws =>
      w' <- tecno_differences d level n left right w;;
      ws' <- tecno_levels d (level + 1) (total w') (vload w') (vload w') ws;;
      Ok (w' :: ws')
  end.

(** wCur, lines 147-155: from the middle entry [a] upwards and downwards, adding
    and subtracting the first differences at the memory offsets next to [i]. *)
Fixpoint w_up (n : nat) (w : vol R) (i : Z) (a : R) : res (list R) :=
  match n with
  | O => Ok []
  | S n => x <- vflat w i;; rest <- w_up n w (i + 1) (a + x)%R;; Ok ((a + x)%R :: rest)
  end.
Fixpoint w_down (n : nat) (w : vol R) (i : Z) (a : R) : res (list R) :=
  match n with
  | O => Ok []
  | S n => x <- vflat w (i - 1);; rest <- w_down n w (i - 1) (a - x)%R;; Ok ((a - x)%R :: rest)
  end.
Definition w_current (k : nat) (w : vol R) (i : Z) (a : R) : res (list R) :=
  up <- w_up (k - 1) w i a;;
  down <- w_down (k - 1) w i a;;
  Ok (rev down ++ a :: up).

(** One variable: lines 59-175.  [el], [er], [left], [right] are the memory areas
    of the variable. *)
Definition tecno_eno_var (k : nat) (d : Z) (el er : vol R) (scratch : list (vol R)) (left right : vol R)
  : res (list (vol R) * (vol R * vol R)) :=
  let order := Z.of_nat k in
  let e := unit_ d in
  dd <- tecno_levels d 1 (total el) (vload el) (vload er) scratch;;
  if forallb (fun j => 2 * e j * order <? total el j) [0; 1; 2] then
    match dd with
    | [] => UB
    | w0 :: _ =>
      let lo j := e j * (order - 1) in
      let hi j := total el j - e j * (order - 1) in
      lr <- for3 (lo 2) (hi 2) (lo 1) (hi 1) (lo 0) (hi 0) (fun x y z (lr : vol R * vol R) =>
        shift <- count_shift d dd x y z 0;;
        a <- vload el x y z;;
        b <- vload er x y z;;
        ws <- w_current k w0 (index (vnx el) (vny el) x y z) a;;
        let us := skipn (Z.to_nat (order - 1 - shift)) ws in
        left' <- vstore (fst lr) x y z (weighted (V := scalar_cvars) (nth (Z.to_nat shift) (eno_coef k) []) us);;
        right' <- vstore (snd lr) x y z
          (weighted (V := scalar_cvars) (nth (Z.to_nat (shift + 1)) (eno_coef k) []) us + (b - a))%R;;
        Ok (left', right')) (left, right);;
      Ok (dd, lr)
    end
  else UB.

Section Tecno.
Context {V : cvars} (bs : basis V).

(** getScalarMemoryArea(i) of a volume, and the volume after its area i was
    replaced. *)
Definition area (i : nat) (v : vol V) : vol R :=
  mkvol (vnx v) (vny v) (vnz v) (fun j => nth i (comps bs (vdat v j)) 0%R).
Fixpoint set_nth (i : nat) (x : R) (l : list R) : list R :=
  match l, i with
  | [], _ => []
  | _ :: l, O => x :: l
  | y :: l, S i => y :: set_nth i x l
  end.
Definition put_area (i : nat) (a : vol R) (v : vol V) : vol V :=
  mkvol (vnx v) (vny v) (vnz v) (fun j => of_comps bs (set_nth i (vdat a j) (comps bs (vdat v j)))).

(** tecno::ENOCPU::performReconstruction, lines 33-177.  [scratch] are the
    order - 1 arrays `dividedDifferences`. *)
Definition tecno_eno (k : nat) (d : Z) (el er : vol V) (scratch : list (vol R)) (left right : vol V)
  : res (list (vol R) * (vol V * vol V)) :=
  if (d <? 0) || (2 <? d) then Throw else
  match scratch with
  | [] => UB
  | w0 :: _ =>
    let scratch1 := if size3 el =? size3 w0 then scratch
                    else map (fun _ => zero_vol (vnx el) (vny el) (vnz el)) scratch in
    fold_res (fun i s =>
      r <- tecno_eno_var k d (area i el) (area i er) (fst s) (area i (fst (snd s))) (area i (snd (snd s)));;
      Ok (fst r, (put_area i (fst (snd r)) (fst (snd s)), put_area i (snd (snd r)) (snd (snd s)))))
      (seq 0 (bdim bs)) (scratch1, (left, right))
  end.

Variables (eq : diff_eq (V := V)) (m : dmatrix).

(** applyDiffusionCPU<direction> with this reconstruction,
    /repo/alsfvm/src/diffusion/TecnoDiffusionCPU.cpp lines 28-99. *)
Definition diffuse_eno_dir (k : nat) (d : Z) (u : vol V) (s : dstate (V := V) * list (vol R)) (out : vol V)
  : res ((dstate (V := V) * list (vol R)) * vol V) :=
  e <- project bs eq d u (d_el (fst s)) (d_er (fst s));;
  r <- tecno_eno k d (fst e) (snd e) (snd s) (d_left (fst s)) (d_right (fst s));;
  out' <- add_diffusion bs eq m d u (fst (snd r)) (snd (snd r)) out;;
  Ok ((mkdstate (fst e) (snd e) (fst (snd r)) (snd (snd r)), fst r), out').

(** applyDiffusion, lines 116-168. *)
Definition apply_eno_diffusion (k : nat) (dims : Z) (u : vol V) (s : dstate (V := V) * list (vol R)) (out : vol V)
  : res ((dstate (V := V) * list (vol R)) * vol V) :=
  fold_res (fun d so => diffuse_eno_dir k d u (fst so) (snd so)) (zrange 0 dims) (s, out).
End Tecno.

(** The arrays as the constructor leaves them, lines 23-31. *)
Definition fresh_scratch (k : nat) (nx ny nz : Z) : list (vol R) :=
  let g := Z.of_nat k in
  repeat (zero_vol (nx + 2 * g) (if 1 <? ny then ny + 2 * g else ny) (if 1 <? nz then nz + 2 * g else nz)) (k - 1).
