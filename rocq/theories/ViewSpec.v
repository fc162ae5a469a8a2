(* What a user expects of assignment through views: the right-hand side is evaluated
   first, then stored. *)
From Verif Require Import Base IndexModel VecModel VecSpec ViewModel.

(* The values paired with position i, in order. *)
Definition paired {A} (i : nat) (a : list nat) (vals : list A) : list A :=
  map snd (filter (fun '(j, _) => j =? i) (combine a vals)).

Definition last_opt {A} (l : list A) : option A :=
  match rev l with [] => None | x :: _ => Some x end.

(* r is old after storing vals[j] at position a[j] for j = 0,1,...: the last value
   stored at a position stays *)
Definition stored {A} (old : list A) (a : list nat) (vals : list A) (r : list A) : Prop :=
  length r = length old /\
  forall i, nth_error r i =
    match nth_error old i, last_opt (paired i a vals) with
    | Some _, Some x => Some x
    | y, _ => y
    end.

(* r is old after  r[a[j]] = f r[a[j]] vals[j]  for j = 0,1,... with vals fixed *)
Definition combined {A} (f : A -> A -> A) (old : list A) (a : list nat) (vals : list A) (r : list A) : Prop :=
  length r = length old /\
  forall i, nth_error r i = option_map (fold_left f (paired i a vals)) (nth_error old i).

(* the values of a list at given positions *)
Fixpoint pick {A} (l : list A) (ids : list nat) : option (list A) :=
  match ids with
  | [] => Some []
  | i :: t =>
      match nth_error l i, pick l t with
      | Some x, Some r => Some (x :: r)
      | _, _ => None
      end
  end.

(* the elements a view refers to, as flat positions in its vector *)
Definition positions (w : view) : list nat := map snd (w_ptrs w).

(* all pointers of the view go to elements of vector k, at positions ids *)
Definition points {A} (st : store A) (k : nat) (w : view) (ids : list nat) : Prop :=
  exists v, nth_error st k = Some v /\ w_ptrs w = map (fun i => (k, i)) ids /\
            Forall (fun i => i < length (v_data v)) ids.

Definition tracked (k : nat) (w : view) : Prop := w_parent w = PVec k /\ w_const w = false.

(* [taken st k t w]: the program obtained the view w from vector k by subscripts.
   t = true when every vector or view on the way was non-const and no range
   subscript was applied to a view. *)
Inductive taken {A} (st : store A) (k : nat) : bool -> view -> Prop :=
| taken_ids c ids w :            (* v[ids] *)
    view_ids st k c ids = Ok w -> taken st k (negb c) w
| taken_rng c r w v :            (* v[a-_-b] *)
    nth_error st k = Some v -> (Z.of_nat (v_size v) <= max_ptrs)%Z -> sub_u64 (SRange r) ->
    view_rng st k c r = Ok w -> taken st k (negb c) w
| taken_multi c subs w v :       (* v(s1,...,sD) *)
    nth_error st k = Some v -> wf v ->
    Forall (fun d => (Z.of_nat d <= max_ptrs)%Z) (v_dims v) -> Forall sub_u64 subs ->
    view_multi st k c subs = Ok w -> taken st k (negb c) w
| taken_sub t w c ids w' :       (* w[ids] *)
    taken st k t w -> view_view_ids w c ids = Ok w' -> taken st k (t && negb c) w'
| taken_sub_rng t w ad c r w' :  (* w[a-_-b] *)
    taken st k t w -> view_view_rng w ad c r = Ok w' -> taken st k false w'.
