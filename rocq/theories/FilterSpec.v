(* What a pixel of the picture should be: the mean of the samples around it, weighted by the
   pixel filter. Pixels and samples are those of FilterModel.v; nothing else of it is used. *)
From Coq Require Import ZArith QArith Qround Qabs List Bool.
From Verif Require Import BucketModel FilterModel.
Import ListNotations.
Local Open Scope Z_scope.

Definition qsum {A} (f : A -> Q) (l : list A) : Q := fold_right (fun a q => (f a + q)%Q) 0%Q l.

Section Spec.
Variable o : fopts.
Variable img : Z * Z -> list sample.

(* The rectangle of the filter, rounded up to whole pixels, around a pixel: is the place with
   the offset (dx, dy) from the middle of the pixel in it? *)
Definition near (dx dy : Q) : bool :=
  Qle_bool (Qabs dx) (inject_Z (Qceiling (f_w o)) / 2) &&
  Qle_bool (Qabs dy) (inject_Z (Qceiling (f_h o)) / 2).

(* The offset of the middle of the k-th subpixel of the pixel p from the middle of the pixel c *)
Definition sub_dx (c p : Z * Z) (k : Z) : Q :=
  ((inject_Z (k mod f_xs o) + (1 # 2)) / inject_Z (f_xs o) + inject_Z (fst p - fst c) - (1 # 2))%Q.
Definition sub_dy (c p : Z * Z) (k : Z) : Q :=
  ((inject_Z (k / f_xs o) + (1 # 2)) / inject_Z (f_ys o) + inject_Z (snd p - snd c) - (1 # 2))%Q.

Definition sample_at (p : Z * Z) (k : Z) : option sample := nth_error (img p) (Z.to_nat k).

(* Is the k-th sample of the pixel p near the pixel c? *)
Definition reaches (c p : Z * Z) (k : Z) : bool :=
  match sample_at p k with
  | Some s => near (sm_x s - (inject_Z (fst c) + (1 # 2))) (sm_y s - (inject_Z (snd c) + (1 # 2)))
  | None => false
  end.

(* The weight of a sample: that of its subpixel *)
Definition weight (c p : Z * Z) (k : Z) : Q :=
  if reaches c p k && near (sub_dx c p k) (sub_dy c p k)
  then f_fun o (sub_dx c p k) (sub_dy c p k)
         (inject_Z (Qceiling (f_w o))) (inject_Z (Qceiling (f_h o)))
  else 0%Q.

(* The j-th number of a sample, 0 where nothing was hit *)
Definition datum (p : Z * Z) (k : Z) (j : nat) : Q :=
  match sample_at p k with
  | Some (Sample _ _ (Some data)) => nth j data 0%Q
  | _ => 0%Q
  end.
Definition hit (p : Z * Z) (k : Z) : bool :=
  match sample_at p k with Some (Sample _ _ (Some _)) => true | _ => false end.

(* The sum over all samples of the pixels P *)
Definition over (P : list (Z * Z)) (f : Z * Z -> Z -> Q) : Q :=
  qsum (fun p => qsum (f p) (zrange 0 (f_xs o * f_ys o))) P.

Definition total (P : list (Z * Z)) (c : Z * Z) : Q := over P (weight c).
Definition mean (P : list (Z * Z)) (c : Z * Z) (j : nat) : Q :=
  (over P (fun p k => weight c p k * datum p k j) / total P c)%Q.
(* The number of samples near the pixel that hit something *)
Definition hits (P : list (Z * Z)) (c : Z * Z) : Q :=
  over P (fun p k => if reaches c p k && hit p k then 1%Q else 0%Q).
Definition covered (P : list (Z * Z)) (c : Z * Z) : Q :=
  let n := inject_Z (f_xs o * f_ys o) in
  if Qle_bool n (hits P c) then 1%Q else (hits P c / n)%Q.

(* The pixels whose samples may matter for the pixel c are all in P, each once *)
Definition surrounds (P : list (Z * Z)) (c : Z * Z) : Prop :=
  NoDup P /\
  forall p, Z.abs (fst p - fst c) <= Qceiling (f_w o) -> Z.abs (snd p - snd c) <= Qceiling (f_h o) -> In p P.

(* Every pixel has its samples, they lie inside of it and have enough data *)
Definition sampled (n : nat) : Prop :=
  forall p, List.length (img p) = Z.to_nat (f_xs o * f_ys o) /\
  forall s, In s (img p) ->
    (inject_Z (fst p) < sm_x s /\ sm_x s < inject_Z (fst p + 1) /\
     inject_Z (snd p) < sm_y s /\ sm_y s < inject_Z (snd p + 1))%Q /\
    forall d, sm_hit s = Some d -> List.length d = n.

(* The options make sense; the filter, rounded up, is no wider than the odd number of whole
   pixels that is at most one more than its width *)
Definition proper : Prop :=
  1 <= f_xs o /\ 1 <= f_ys o /\ (0 <= f_w o)%Q /\ (0 <= f_h o)%Q.
Definition whole (w : Q) : Prop := Qceiling w <= 2 * Qfloor (w / 2) + 1.

End Spec.

(* The channels of the shaders: where they are in the data of a sample, how many numbers *)
Definition aovs_ok (n : nat) (aovs : list (Z * Z)) : Prop :=
  Forall (fun c => 0 <= fst c /\ 1 <= snd c /\ fst c + snd c <= Z.of_nat n) aovs.
Definition inside (r : region) (c : Z * Z) : Prop :=
  rx0 r <= fst c < rx1 r /\ ry0 r <= snd c < ry1 r.
(* The values that are in the buffer are these *)
Definition all_eq (l : list (option Q)) (m : list Q) : Prop :=
  Forall2 (fun a b => match a with Some a => (a == b)%Q | None => False end) l m.
