From Coq Require Import Ascii.
From Verif Require Import Base StrModel StrSpec DirModel DirSpec.
Local Open Scope nat_scope.

(* --- explorer ------------------------------------------------------------------ *)
Section Explorer.
Variable contents : list ascii -> option (list entry).
Variable fnmatch : list ascii -> list ascii -> bool.

Definition sel (p : list ascii) (e : entry) : bool := match p with [] => true | _ => fnmatch p (ename e) end.
Definition data (dir : list ascii) (en : entry) : file_data :=
  let '(d, n) := match estat en with Some (d, n) => (d, n) | None => (false, 0%N) end in
  File (dir ++ "/"%char :: ename en) (ename en) n (match ename en with c :: _ :: _ => Ascii.eqb c "."%char | _ => false end) d.

Lemma nth_last : forall (pre : streams) x, nth_error (pre ++ [x]) (length pre) = Some x.
Proof. intros. now rewrite nth_error_app2, Nat.sub_diag by lia. Qed.
Lemma upd_last : forall (pre : streams) x y, upd (pre ++ [x]) (length pre) y = pre ++ [y].
Proof. induction pre as [|a pre IH]; intros x y; cbn; auto. now rewrite IH. Qed.
Lemma readdir_cons : forall pre e es, readdir (pre ++ [Some (e :: es)]) (length pre) = Ok (Some e, pre ++ [Some es]).
Proof. intros. unfold readdir. now rewrite nth_last, upd_last. Qed.
Lemma readdir_nil : forall pre, readdir (pre ++ [Some []]) (length pre) = Ok (None, pre ++ [Some []]).
Proof. intros. unfold readdir. now rewrite nth_last. Qed.

Lemma next_nil : forall pre dir p, find_next fnmatch (pre ++ [Some []]) (Explorer dir p (Some (length pre))) = Ok (pre ++ [Some []], None).
Proof.
  intros. unfold find_next. cbn [dirfd pattern]. destruct p as [|c p].
  - now rewrite readdir_nil.
  - rewrite nth_last. cbn [length next_match]. now rewrite readdir_nil.
Qed.
Lemma next_cons : forall pre dir p e es, find_next fnmatch (pre ++ [Some (e :: es)]) (Explorer dir p (Some (length pre))) =
  if sel p e then Ok (pre ++ [Some es], Some (data dir e)) else find_next fnmatch (pre ++ [Some es]) (Explorer dir p (Some (length pre))).
Proof.
  intros. unfold find_next. cbn [dirfd pattern directory]. destruct p as [|c p].
  - rewrite readdir_cons. cbn [sel obind]. unfold data. destruct (estat e) as [[d n]|]; reflexivity.
  - rewrite !nth_last. cbn [length next_match]. rewrite readdir_cons. cbn [obind sel].
    destruct (fnmatch (c :: p) (ename e)).
    + cbn [obind]. unfold data. destruct (estat e) as [[d n]|]; reflexivity.
    + reflexivity.
Qed.
Lemma list_loop_ok : forall keep pre dir p es fuel l, length es <= fuel ->
  list_loop fnmatch fuel keep (pre ++ [Some es]) (Explorer dir p (Some (length pre))) l =
  Ok (pre ++ [Some []], l ++ map name (filter keep (map (data dir) (filter (sel p) es)))).
Proof.
  intros keep pre dir p. induction es as [|e es IH]; intros fuel l H.
  - destruct fuel; cbn [list_loop]; rewrite next_nil; cbn [obind map filter]; now rewrite app_nil_r.
  - destruct fuel as [|fuel]; [cbn in H; lia|]. cbn in H. cbn [list_loop]. rewrite next_cons. cbn [filter].
    destruct (sel p e).
    + cbn [obind]. rewrite IH by lia. cbn [map filter]. destruct (keep (data dir e)); [|reflexivity].
      cbn [map]. now rewrite <- app_assoc.
    + specialize (IH (S fuel) l). cbn [list_loop] in IH. apply IH. lia.
Qed.
Definition star (p : list ascii) : list ascii := if list_eq_dec ascii_dec p ["*"%char] then [] else p.
Lemma list_with_ok : forall keep os dir p,
  (forall es, contents dir = Some es -> list_with contents fnmatch keep os dir p =
     Ok (os ++ [None], map name (filter keep (map (data dir) (filter (sel (star p)) es))))) /\
  (contents dir = None -> list_with contents fnmatch keep os dir p = Ok (os, [])).
Proof.
  intros keep os dir p. split.
  - intros es C. unfold list_with, open, close, new_explorer. cbn [dirfd obind]. rewrite C. cbn [obind].
    fold (star p). rewrite (list_loop_ok keep os dir (star p) es) by auto. cbn [obind app].
    unfold destroy, close. cbn [dirfd]. unfold closedir. rewrite nth_last. cbn [obind]. now rewrite upd_last.
  - intros C. unfold list_with, open, close, new_explorer. cbn [dirfd obind]. rewrite C. reflexivity.
Qed.

(* --- sessions ------------------------------------------------------------------- *)
Fixpoint well_used (op : bool) (calls : list call) : bool :=
  match calls with
  | [] => true
  | COpen d _ :: r => well_used (match contents d with Some _ => true | None => false end) r
  | CClose :: r => negb op && well_used op r
  | CNext :: r => well_used op r
  end.
Notation run := (fun '(os, e) c => do_call contents fnmatch os e c).
Definition ends (s : streams * explorer) (calls : list call) : outcome streams :=
  '(os, e) <- ofold run calls s ;; destroy os e.
Lemma ends_cons : forall os e c calls, ends (os, e) (c :: calls) =
  (s <- do_call contents fnmatch os e c ;; ends s calls).
Proof. intros. unfold ends. cbn [ofold]. destruct (do_call contents fnmatch os e c) as [[os' e']| | | |]; reflexivity. Qed.

Lemma broken : forall calls pre post e, dirfd e = Some (length pre) -> pattern e = [] -> ends (pre ++ None :: post, e) calls = UB.
Proof.
  intros calls pre post [dir p fd] F P. cbn [dirfd pattern] in *. subst.
  assert (N : nth_error (pre ++ None :: post) (length pre) = Some (@None (list entry))) by now rewrite nth_error_app2, Nat.sub_diag by lia.
  destruct calls as [|c calls].
  - unfold ends. cbn [ofold obind]. unfold destroy, close. cbn [dirfd]. unfold closedir. now rewrite N.
  - rewrite ends_cons. destruct c as [d p| |]; cbn [do_call].
    + unfold open, close. cbn [dirfd]. unfold closedir. now rewrite N.
    + unfold close. cbn [dirfd]. unfold closedir. now rewrite N.
    + unfold find_next. cbn [dirfd pattern]. unfold readdir. now rewrite N.
Qed.
Lemma find_next_state : forall pre dir p es, exists es' f,
  find_next fnmatch (pre ++ [Some es]) (Explorer dir p (Some (length pre))) = Ok (pre ++ [Some es'], f).
Proof.
  intros pre dir p. induction es as [|e es (es' & f & IH)].
  - exists [], None. apply next_nil.
  - rewrite next_cons. destruct (sel p e); eauto.
Qed.
(* after [n] streams have been opened and closed *)
Lemma repeat_snoc' : forall A (x : A) n, repeat x n ++ [x] = repeat x (S n).
Proof. induction n as [|n IH]; cbn; auto. now rewrite IH. Qed.
Lemma ends_ok : forall calls os n dir p,
  (if well_used false calls
   then ends (os ++ repeat None n, Explorer dir p None) calls = Ok (os ++ repeat None (n + opened contents calls))
   else ends (os ++ repeat None n, Explorer dir p None) calls = UB) /\
  (forall es, if well_used true calls
   then ends ((os ++ repeat None n) ++ [Some es], Explorer dir p (Some (length (os ++ repeat None n)))) calls
        = Ok (os ++ repeat None (n + 1 + opened contents calls))
   else ends ((os ++ repeat None n) ++ [Some es], Explorer dir p (Some (length (os ++ repeat None n)))) calls = UB).
Proof.
  induction calls as [|c calls IH]; intros os n dir p.
  - cbn [well_used]. split.
    + unfold ends. cbn. now rewrite Nat.add_0_r.
    + intros es. unfold ends. cbn [ofold obind]. unfold destroy, close. cbn [dirfd]. unfold closedir. rewrite nth_last. cbn [obind].
      rewrite upd_last, <- app_assoc, repeat_snoc'. cbn. now rewrite Nat.add_0_r, Nat.add_1_r.
  - destruct c as [d q| |].
    + cbn [well_used]. assert (O : opened contents (COpen d q :: calls) = (if contents d then 1 else 0) + opened contents calls).
      { unfold opened. cbn [filter]. destruct (contents d); reflexivity. }
      split.
      * rewrite ends_cons. cbn [do_call]. unfold open, close. cbn [dirfd obind]. rewrite O. destruct (contents d) as [es|]; cbn [obind].
        -- fold (star q). destruct (IH os n d (star q)) as [_ I2]. specialize (I2 es). rewrite Nat.add_assoc.
           destruct (well_used true calls); exact I2.
        -- destruct (IH os n [] []) as [I1 _]. cbn [directory pattern]. destruct (well_used false calls); exact I1.
      * intros es. rewrite ends_cons. cbn [do_call]. unfold open, close. cbn [dirfd]. unfold closedir. rewrite nth_last. cbn [obind].
        rewrite upd_last, <- app_assoc, repeat_snoc', O. destruct (contents d) as [es'|]; cbn [obind].
        -- fold (star q). destruct (IH os (S n) d (star q)) as [_ I2]. specialize (I2 es').
           replace (n + 1 + (1 + opened contents calls)) with (S n + 1 + opened contents calls) by lia.
           destruct (well_used true calls); exact I2.
        -- destruct (IH os (S n) [] []) as [I1 _]. cbn [directory pattern].
           replace (n + 1 + (0 + opened contents calls)) with (S n + opened contents calls) by lia.
           destruct (well_used false calls); exact I1.
    + cbn [well_used negb andb]. assert (O : opened contents (CClose :: calls) = opened contents calls) by reflexivity. rewrite O. split.
      * rewrite ends_cons. cbn [do_call]. unfold close. cbn [dirfd obind]. apply IH.
      * intros es. rewrite ends_cons. cbn [do_call]. unfold close. cbn [dirfd]. unfold closedir. rewrite nth_last. cbn [obind].
        rewrite upd_last. apply broken; reflexivity.
    + cbn [well_used]. assert (O : opened contents (CNext :: calls) = opened contents calls) by reflexivity. rewrite O. split.
      * rewrite ends_cons. cbn [do_call]. unfold find_next. cbn [dirfd obind]. apply IH.
      * intros es. rewrite ends_cons. cbn [do_call].
        destruct (find_next_state (os ++ repeat None n) dir p es) as (es' & f & E). rewrite E. cbn [obind]. apply (IH os n dir p).
Qed.
Lemma well_used_spec : forall calls,
  (well_used false calls = false <-> closes_open contents calls) /\
  (well_used true calls = false <-> closes_open contents calls \/ exists b c, calls = b ++ CClose :: c /\ forall d p, ~ In (COpen d p) b).
Proof.
  induction calls as [|c calls [IH1 IH2]].
  - cbn. split; split; try discriminate.
    + intros (a & d & p & b & c & E & _). destruct a; discriminate.
    + intros [(a & d & p & b & c & E & _)|(b & c & E & _)]; [destruct a; discriminate|destruct b; discriminate].
  - assert (Up : closes_open contents calls -> closes_open contents (c :: calls)).
    { intros (a & d & p & b & c' & E & C & N). exists (c :: a), d, p, b, c'. subst. auto. }
    assert (Down : closes_open contents (c :: calls) -> closes_open contents calls \/
      exists d p, c = COpen d p /\ contents d <> None /\ exists b c', calls = b ++ CClose :: c' /\ forall d p, ~ In (COpen d p) b).
    { intros (a & d & p & b & c' & E & C & N). destruct a as [|x a].
      - right. injection E as -> ->. exists d, p. split; auto. split; auto. eauto.
      - left. injection E as -> ->. exists a, d, p, b, c'. auto. }
    destruct c as [d p| |]; cbn [well_used].
    + destruct (contents d) as [es|] eqn:C.
      * split.
        -- rewrite IH2. split.
           ++ intros [H|(b & c & -> & N)]; auto. exists [], d, p, b, c. split; auto. split; [congruence|auto].
           ++ intros H. destruct (Down H) as [H'|(d' & p' & E & _ & b & c & E' & N)]; eauto.
        -- rewrite IH2. split.
           ++ intros [H|(b & c & -> & N)]; auto. left. exists [], d, p, b, c. split; auto. split; [congruence|auto].
           ++ intros [H|(b & c & E & N)].
              ** destruct (Down H) as [H'|(d' & p' & E & _ & b & c & E' & N)]; eauto.
              ** exfalso. destruct b as [|x b]; [discriminate|]. injection E as <- _. apply (N d p). now left.
      * split.
        -- rewrite IH1. split; auto. intros H. destruct (Down H) as [H'|(d' & p' & E & C' & _)]; auto. injection E as <- <-. tauto.
        -- rewrite IH1. split; auto. intros [H|(b & c & E & N)].
           ++ destruct (Down H) as [H'|(d' & p' & E & C' & _)]; auto. injection E as <- <-. tauto.
           ++ exfalso. destruct b as [|x b]; [discriminate|]. injection E as <- _. apply (N d p). now left.
    + split; cbn [negb andb].
      * rewrite IH1. split; auto. intros H. destruct (Down H) as [H'|(d' & p' & E & _)]; auto. discriminate.
      * split; auto. intros _. right. exists [], calls. split; auto.
    + split.
      * rewrite IH1. split; auto. intros H. destruct (Down H) as [H'|(d' & p' & E & _)]; auto. discriminate.
      * rewrite IH2. split.
        -- intros [H|(b & c & -> & N)]; auto. right. exists (CNext :: b), c. split; auto. intros d p [E|I]; [discriminate|]. now apply (N d p).
        -- intros [H|(b & c & E & N)].
           ++ destruct (Down H) as [H'|(d' & p' & E & _)]; auto. discriminate.
           ++ destruct b as [|x b]; [discriminate|]. injection E as <- ->. right. exists b, c. split; auto. intros d p I. apply (N d p). now right.
Qed.
End Explorer.
