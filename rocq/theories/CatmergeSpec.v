(* What merging catalogues is supposed to do. *)
From Coq Require Import String.
From Verif Require Import Base CatmergeModel.
Local Open Scope nat_scope.
Local Open Scope list_scope.

(* the elements of l with the given numbers *)
Definition gather {T} (l : list T) (ids : list nat) : list T :=
  flat_map (fun i => match nth_error l i with Some v => [v] | None => [] end) ids.

Section Spec.
Context {C D : Type}.

(* source i of the new catalogue and source k of the pool are the nearest ones of each other *)
Definition mutual (x : xmres D) (i k : nat) : Prop :=
  nth_error (xid x) i = Some (Some k) /\ nth_error (xrid x) k = Some (Some i).
Definition partner (x : xmres D) (i : nat) : option nat :=
  match nth_error (xid x) i with
  | Some (Some k) => match nth_error (xrid x) k with Some (Some j) => if j =? i then Some k else None | _ => None end
  | _ => None
  end.
Definition alone (x : xmres D) (i : nat) : bool := match partner x i with Some _ => false | None => true end.
(* a cross match of n sources with the ng of the pool: everyone has a nearest neighbour *)
Definition good_match (n ng : nat) (x : xmres D) : Prop :=
  length (xid x) = n /\ length (xrid x) = ng /\
  Forall (fun o => exists k, o = Some k /\ k < ng) (xid x) /\ Forall (fun row => length row = n) (xd x).
(* the sources kept, those that are new *)
Definition kept (no_new : bool) (x : xmres D) (n : nat) : list nat := if no_new then filter (fun i => negb (alone x i)) (seq 0 n) else seq 0 n.
Definition new_ones (no_new : bool) (x : xmres D) (n : nat) : list nat := if no_new then [] else filter (alone x) (seq 0 n).
(* where source i goes *)
Definition target (x : xmres D) (ng i : nat) : nat :=
  match partner x i with Some k => k | None => ng + length (filter (alone x) (seq 0 i)) end.

(* the sources of a catalogue go to different places of the pool *)
Definition valid_cat (n : nat) (c : catalog D) : Prop :=
  length (idi c) = length (idm c) /\ NoDup (idm c) /\ Forall (fun g => g < n) (idm c).
Definition valid (p : pool C D) : Prop :=
  exists n, ngal p = Some n /\ length (ra p) = n /\ length (dec p) = n /\ length (origin p) = n /\
    Forall (valid_cat n) (cats p) /\
    (* every source belongs to the catalogue it comes from *)
    (forall g o, nth_error (origin p) g = Some o -> exists c, 1 <= o /\ nth_error (cats p) (o - 1) = Some c /\ In g (idm c)).
(* an empty selection stands for all the sources *)
Definition sel_of (cra : list C) (sel : list nat) : list nat := match sel with [] => seq 0 (length cra) | _ => sel end.
(* the cross match used: one that was saved for catalogues of the same sizes, or else a new one *)
Definition match_used (qx : list C -> list C -> list C -> list C -> outcome (xmres D)) (force : bool)
    (cached : option (nat * nat * xmres D)) (p : pool C D) (ng : nat) (cra cdec : list C) (sel : list nat) : outcome (xmres D) :=
  match cached with
  | Some (ns, n, x) => if negb force && (ns =? length (sel_of cra sel)) && (n =? ng) then Ok x
                       else qx (gather cra (sel_of cra sel)) (gather cdec (sel_of cra sel)) (ra p) (dec p)
  | None => qx (gather cra (sel_of cra sel)) (gather cdec (sel_of cra sel)) (ra p) (dec p)
  end.
(* the pools that can be made *)
Inductive made : pool C D -> Prop :=
| made_first qx ref_of force cached p' cra cdec no_new sel :
    add_catalog_ qx ref_of force cached empty_pool cra cdec no_new sel = Ok p' -> made p'
| made_plain ref_of p p' : made p -> add_catalog_plain ref_of p = Ok p' -> made p'
| made_more qx ref_of force cached p p' cra cdec no_new sel ng x : made p -> ngal p = Some ng ->
    match_used qx force cached p ng cra cdec sel = Ok x -> good_match (length (sel_of cra sel)) ng x ->
    add_catalog_ qx ref_of force cached p cra cdec no_new sel = Ok p' -> made p'.

(* res has the values of out for the sources of c, def elsewhere *)
Definition merged {T} (n : nat) (c : catalog D) (out : list T) (def : T) (res : list T) : Prop :=
  length res = n /\
  (forall k g i v, nth_error (idm c) k = Some g -> nth_error (idi c) k = Some i -> nth_error out i = Some v -> nth_error res g = Some v) /\
  (forall g, g < n -> ~ In g (idm c) -> nth_error res g = Some def).
(* the photometry has a row for every source and a column for every band *)
Definition valid_phot {T} (n : nat) (f : phot T) : Prop :=
  (bands f = [] /\ flux f = (0, 0, []) /\ ferr f = (0, 0, [])) \/
  (0 < length (bands f) /\ exists rf re, flux f = (n, length (bands f), rf) /\ ferr f = (n, length (bands f), re) /\
     length rf = n /\ length re = n /\
     Forall (fun r => length r = length (bands f)) rf /\ Forall (fun r => length r = length (bands f)) re).
(* the rows of a matrix, n empty ones for the matrix without any element *)
Definition rows_of {T} (n : nat) (m : mat T) : list (list T) := let '(d0, d1, r) := m in if d0 * d1 =? 0 then repeat [] n else r.
End Spec.
(* the distances to the matches, for all the sources of the catalogue (ncat); none for those not selected *)
Definition distances {D} (ncat : nat) (sel keep : list nat) (rows : list (list D)) (td : list (list (option D))) : Prop :=
  length td = length rows /\
  forall r row, nth_error rows r = Some row -> exists t, nth_error td r = Some t /\ length t = ncat /\
    (forall i j d, In i keep -> nth_error sel i = Some j -> nth_error row i = Some d -> nth_error t j = Some (Some d)) /\
    (forall j, j < ncat -> ~ In j (gather sel keep) -> nth_error t j = Some None).
