(* What fitting a sum of templates means. *)
From Coq Require Import QArith.
From Verif Require Import Base IndexSpec ConvSpec ImageModel.
Local Open Scope nat_scope.

(* band m of the sum of the templates ids, with amplitudes b *)
Definition mixture (libs : list (list (list Q))) (ids : list nat) (b : list Q) (m : nat) : Q :=
  qsum (fun l => nth l b 0 * nth m (nth (nth l ids 0%nat) (nth l libs []) []) 0)%Q (length libs).
(* its chi2 *)
Definition mixture_chi2 (libs : list (list (list Q))) (y e : list Q) (ids : list nat) (b : list Q) : Q :=
  qsum (fun m => ((nth m y 0 - mixture libs ids b m) / nth m e 0) * ((nth m y 0 - mixture libs ids b m) / nth m e 0))%Q (length y).
(* at least one library; as many values as bands; errors that are not 0 *)
Definition mix_input (libs : list (list (list Q))) (y e : list Q) : Prop :=
  libs <> [] /\ length y = length e /\ (forall lib t, In lib libs -> In t lib -> length t = length e) /\
  (forall x, In x e -> ~ (x == 0)%Q).
(* a choice of one template in each library *)
Definition choice (libs : list (list (list Q))) (ids : list nat) : Prop := in_range (map (@length (list Q)) libs) ids.
(* the symmetric matrix whose lower half is that of the n x n matrix stored in d *)
Definition low (n : nat) (d : list Q) (i j : nat) : Q := nth (Nat.max i j * n + Nat.min i j) d 0%Q.
(* the lower half of m is that of the inverse *)
Definition lower_inverse (n : nat) (a m : list Q) : Prop := forall i k, i < n -> k < n ->
  (qsum (fun j => low n a i j * low n m j k) n == if i =? k then 1 else 0)%Q.
(* a combination of the templates chosen, not all amplitudes being 0, is 0 in all bands *)
Definition dependent (libs : list (list (list Q))) (nb : nat) (ids : list nat) : Prop := exists b,
  (exists l, l < length libs /\ ~ (nth l b 0 == 0)%Q) /\ forall m, m < nb -> (mixture libs ids b m == 0)%Q.
(* what is asked of the inversion of symmetric matrices: it gives the lower half of the inverse, or
   fails for singular matrices *)
Definition inverts (inv : img Q -> outcome (option (img Q))) : Prop := forall n a, length a = n * n ->
  (exists m, inv (Img n n a) = Ok (Some (Img n n m)) /\ length m = n * n /\ lower_inverse n a m) \/
  (inv (Img n n a) = Ok None /\ exists b : nat -> Q, (exists i, i < n /\ ~ (b i == 0)%Q) /\
     forall i, i < n -> (qsum (fun j => low n a i j * b j) n == 0)%Q).
(* ids, amp, c: the first of the best fits among the choices allowed, of index below K *)
Definition mix_best (libs : list (list (list Q))) (y e : list Q) (allowed : list nat -> bool) (K : nat) (ids : list nat) (amp : list Q) (c : Q) : Prop :=
  let size := map (@length (list Q)) libs in
  choice libs ids /\ allowed ids = true /\ row_major size ids < K /\ length amp = length libs /\
  (c == mixture_chi2 libs y e ids amp)%Q /\
  forall ids' b, choice libs ids' -> allowed ids' = true -> row_major size ids' < K ->
    (c <= mixture_chi2 libs y e ids' b)%Q /\ (row_major size ids' < row_major size ids -> (c < mixture_chi2 libs y e ids' b)%Q).
(* the first K choices allowed are independent, and the next one, if any, is allowed and is not *)
Definition independent_upto (libs : list (list (list Q))) (nb : nat) (allowed : list nat -> bool) (K : nat) : Prop :=
  let size := map (@length (list Q)) libs in
  (forall ids, choice libs ids -> allowed ids = true -> row_major size ids < K -> ~ dependent libs nb ids) /\
  (K = nprod size \/ K < nprod size /\ exists ids, choice libs ids /\ row_major size ids = K /\ allowed ids = true /\ dependent libs nb ids).
