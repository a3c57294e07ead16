(** The pair storage as its users see it: a finite map from identifiers to pairs, and the set of
    existing colliders. *)
From Verif Require Import Base HashSpec BitsModel PairsModel.
Open Scope Z_scope.

Record pspec : Type := mk_pspec { sp_pairs : list (Z * pair); sp_coll : list Z }.
Definition init_pspec : pspec := mk_pspec [] [].
Definition involves (c : Z) (p : pair) : bool := (p_c1 p =? c) || (p_c2 p =? c).

(** A pair that is enabled or disabled forgets a pending overlap test, nothing else. *)
Definition set_enabled (e : bool) (p : pair) : pair :=
  mk_pair (p_id p) (p_b1 p) (p_b2 p) (p_c1 p) (p_c2 p) false (p_prev p) (p_cur p) e (p_concave p).

(** [Ub] marks the calls outside the contract: adding a pair that exists or whose colliders are
    equal or do not exist, a retest request for a pair that is not enabled, destroying a collider
    that still has pairs. *)
Definition pspec_step (s : pspec) (op : pop) : res pspec :=
  let m := sp_pairs s in
  match op with
  | PAdd c1 b1 c2 b2 convex =>
      let id := pair_id b1 b2 in
      if has Z.eqb id m || (c1 =? c2) || negb (existsb (Z.eqb c1) (sp_coll s)) || negb (existsb (Z.eqb c2) (sp_coll s)) then Ub
      else Ok (mk_pspec (m_set Z.eqb id (new_pair id b1 b2 c1 c2 true (negb convex)) m) (sp_coll s))
  | PRemove id => Ok (mk_pspec (m_remove Z.eqb id m) (sp_coll s))
  | PEnable id =>
      match lookup Z.eqb id m with
      | Some p => Ok (if p_enabled p then s else mk_pspec (m_set Z.eqb id (set_enabled true p) m) (sp_coll s))
      | None => Ok s
      end
  | PDisable id =>
      match lookup Z.eqb id m with
      | Some p => Ok (if p_enabled p then mk_pspec (m_set Z.eqb id (set_enabled false p) m) (sp_coll s) else s)
      | None => Ok s
      end
  | PNeedTest id v =>
      match lookup Z.eqb id m with
      | Some p => if p_enabled p then Ok (mk_pspec (m_set Z.eqb id (with_test v p) m) (sp_coll s)) else Ub
      | None => Ub
      end
  | PSetTest id v =>
      match lookup Z.eqb id m with Some p => Ok (mk_pspec (m_set Z.eqb id (with_test v p) m) (sp_coll s)) | None => Ub end
  | PSetColliding id =>
      match lookup Z.eqb id m with Some p => Ok (mk_pspec (m_set Z.eqb id (with_flags (p_prev p) true p) m) (sp_coll s)) | None => Ub end
  | PUpdatePrevious => Ok (mk_pspec (map (fun e => (fst e, if p_enabled (snd e) then with_flags (p_cur (snd e)) (p_cur (snd e)) (snd e) else snd e)) m) (sp_coll s))
  | PClearCurrent => Ok (mk_pspec (map (fun e => (fst e, if p_enabled (snd e) then with_flags (p_prev (snd e)) false (snd e) else snd e)) m) (sp_coll s))
  | PAddCollider c => if existsb (Z.eqb c) (sp_coll s) then Ub else Ok (mk_pspec m (c :: sp_coll s))
  | PDeleteCollider c => if existsb (fun e => match lookup Z.eqb (fst e) m with Some p => involves c p | None => false end) m then Ub else Ok (mk_pspec m (filter (fun x => negb (x =? c)) (sp_coll s)))
  end.
Fixpoint pspec_run (s : pspec) (ops : list pop) : res pspec :=
  match ops with [] => Ok s | op :: ops' => let* s := pspec_step s op in pspec_run s ops' end.

(** What the storage answers: the lookup of every identifier, the contents of the four arrays (no
    pair twice), the array of pairs of every collider (without repetition). *)
Definition p_represents (o : pairs) (s : pspec) : Prop :=
  (forall id, get_pair id o = Ok (lookup Z.eqb id (sp_pairs s))) /\
  (forall id, is_disabled id o = match lookup Z.eqb id (sp_pairs s) with Some p => negb (p_enabled p) | None => false end) /\
  (forall k e, NoDup (map p_id (s_arr (sel k e o))) /\
     forall p, In p (s_arr (sel k e o)) <-> lookup Z.eqb (p_id p) (sp_pairs s) = Some p /\ p_concave p = k /\ p_enabled p = e) /\
  (forall c, match coll_get c o with
             | Ok l => In c (sp_coll s) /\ NoDup l /\ forall id, In id l <-> exists p, lookup Z.eqb id (sp_pairs s) = Some p /\ involves c p = true
             | _ => ~ In c (sp_coll s)
             end).
