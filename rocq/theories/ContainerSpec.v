(** * Specification of the containers: finite maps from ids *)
From Coq Require Import ZArith List Bool.
From Verif Require Import Base Num SiteModel ClusterModel.
Import ListNotations.
Open Scope Z_scope.

(** a finite map from ids *)
Definition amap (V : Type) := Z -> option V.
Definition none {V} : amap V := fun _ => None.
Definition put {V} (f : amap V) (k : Z) (v : V) : amap V := fun j => if j =? k then Some v else f j.
Definition drop {V} (f : amap V) (k : Z) : amap V := fun j => if j =? k then None else f j.

(** [l] lists exactly the ids of [f], each once *)
Definition lists {V} (f : amap V) (l : list Z) : Prop :=
  NoDup l /\ forall k, In k l <-> f k <> None.
(** [m] holds exactly [g v] for every [v] of [f] *)
Definition holds {V W} (f : amap V) (g : V -> W) (m : umap W) : Prop :=
  NoDup (ukeys m) /\ forall k, ulookup k m = option_map g (f k).

Section Spec.
Context {I : Impl} {N : Num} {G : Rng}.

(** ** Calls of Site_Container and their answers *)
Inductive sop :=
| SAdd (s : site) | SAdds (l : list site)
| SGet (k : Z) | SGetOf (ids : list Z) | SGetAll | SSize | SExist (k : Z) | SIds
| SSetCluster (k c : Z) | SCluster (k : Z) | SPart (k : Z) | SSmallest (clock : nat -> Z) (ids : list Z)
| SIsOccupied (k : Z) | SVacate (k : Z) | SOccupy (k : Z)
| SDwell (k : Z) | STau (k : Z)
| SRates | SFastest (h : heap) (k : Z) | SRateTo (h : heap) (k n : Z) | SNeigh (k : Z).
Inductive sans :=
| Done | ASite (s : site) | ASites (m : umap site) | ABool (b : bool) | AInt (z : Z) | AIds (l : list Z)
| ANum (x : num) | ARates (m : umap (umap Z)).

(** a question about one id: answered from what is stored, nothing changes *)
Definition asks {V A} (f : amap V) (k : Z) (g : V -> res A) (r : res A) (f' : amap V) : Prop :=
  f' = f /\ r = match f k with Some v => g v | None => Err InvalidArgument end.
(** a change of the value stored under one id *)
Definition tells {V A} (f : amap V) (k : Z) (a : A) (v' : V -> V) (r : res A) (f' : amap V) : Prop :=
  match f k with
  | Some v => r = Ok a /\ f' = put f k (v' v)
  | None => r = Err InvalidArgument /\ f' = f
  end.
(** adding: only under a new id *)
Definition adds {V A} (f : amap V) (a : A) (i : Z) (v : V) (r : res A) (f' : amap V) : Prop :=
  match f i with
  | Some _ => r = Err InvalidArgument /\ f' = f
  | None => r = Ok a /\ f' = put f i v
  end.
(** adding a list: stops at the first id that is taken *)
Inductive adds_all {V A} (a : A) (id : V -> option Z) : amap V -> list V -> res A -> amap V -> Prop :=
| aa_nil f : adds_all a id f [] (Ok a) f
| aa_next f i v l r f' f'' : id v = Some i -> adds f a i v (Ok a) f' -> adds_all a id f' l r f'' -> adds_all a id f (v :: l) r f''
| aa_taken f i v l e f' : id v = Some i -> adds f a i v (Err e) f' -> adds_all a id f (v :: l) (Err e) f'
| aa_noid f v l : id v = None -> adds_all a id f (v :: l) (Err RuntimeError) f.

(** the smallest assigned cluster id among the sites, unassignedId if none is assigned *)
Definition smallest (cs : list Z) (c : Z) : Prop :=
  (c = unassignedId /\ forall x, In x cs -> x = unassignedId)
  \/ (In c cs /\ c <> unassignedId /\ forall x, In x cs -> x <> unassignedId -> c <= x).

(** what one call of Site_Container must do to the map [f] *)
Definition sspec (f : amap site) (o : sop) (r : res sans) (f' : amap site) : Prop :=
  match o with
  | SAdd s => match s_id s with
              | Some i => adds f Done i s r f'
              | None => r = Err RuntimeError /\ f' = f
              end
  | SAdds l => adds_all Done s_id f l r f'
  | SGet k => asks f k (fun s => Ok (ASite s)) r f'
  | SGetOf ids =>
      f' = f /\
      if forallb (fun k => match f k with Some _ => true | None => false end) ids
      then exists m, r = Ok (ASites m) /\ NoDup (ukeys m) /\
             forall k, ulookup k m = if existsb (Z.eqb k) ids then f k else None
      else r = Err InvalidArgument
  | SGetAll => f' = f /\ exists m, r = Ok (ASites m) /\ holds f (fun s => s) m
  | SSize => f' = f /\ exists l, lists f l /\ r = Ok (AInt (Z.of_nat (length l)))
  | SExist k => f' = f /\ r = Ok (ABool (match f k with Some _ => true | None => false end))
  | SIds => f' = f /\ exists l, lists f l /\ r = Ok (AIds l)
  | SSetCluster k c => tells f k Done (s_with_cluster c) r f'
  | SCluster k => asks f k (fun s => Ok (AInt (s_cluster s))) r f'
  | SPart k => asks f k (fun s => Ok (ABool (-1 <? s_cluster s))) r f'
  | SSmallest _ ids =>
      f' = f /\
      if forallb (fun k => match f k with Some _ => true | None => false end) ids
      then exists c, r = Ok (AInt c) /\
             smallest (map (fun k => match f k with Some s => s_cluster s | None => unassignedId end) ids) c
      else r = Err InvalidArgument
  | SIsOccupied k => asks f k (fun s => Ok (ABool (0 <? s_occ s))) r f'
  | SVacate k => tells f k Done (fun s => s_with_occ (s_occ s - 1) s) r f'
  | SOccupy k => tells f k Done (fun s => s_with_occ (s_occ s + 1) (s_with_visits (s_visits s + 1) s)) r f'
  | SDwell k =>
      match f k with
      | Some s => r = Ok (ANum (dwell_of (fst (edraw (s_rng s))) (s_tau s)))
                  /\ f' = put f k (s_with_rng (snd (edraw (s_rng s))) s)
      | None => r = Err InvalidArgument /\ f' = f
      end
  | STau k => asks f k (fun s => Ok (ANum (s_tau s))) r f'
  | SRates => f' = f /\ exists m, r = Ok (ARates m) /\ holds f s_neigh m
  | SFastest h k => asks f k (fun s => Ok (ANum (s_getFastestRate h s))) r f'
  | SRateTo h k n => asks f k (fun s => match ulookup n (s_neigh s) with
                                        | Some a => Ok (ANum (h a))
                                        | None => Bad AssertFailed
                                        end) r f'
  | SNeigh k => asks f k (fun s => Ok (AIds (ukeys (s_neigh s)))) r f'
  end.

(** calls in sequence; a failed assertion ends the program *)
Inductive runs {O A V} (spec : amap V -> O -> res A -> amap V -> Prop) : amap V -> list O -> list (res A) -> amap V -> Prop :=
| runs_nil f : runs spec f [] [] f
| runs_call f o os r rs f' f'' : (forall h, r <> Bad h) -> spec f o r f' -> runs spec f' os rs f'' -> runs spec f (o :: os) (r :: rs) f''
| runs_stop f o os h f' : spec f o (Bad h) f' -> runs spec f (o :: os) [Bad h] f'.

(** ** Calls of Cluster_Container *)
Inductive cop :=
| CAdd (c : cluster) | CAdds (l : list cluster)
| CGet (k : Z) | CErase (k : Z) | CSize | CExist (k : Z) | CIds
| CIsOccupied (k : Z) | CVacate (k : Z) | COccupy (k : Z)
| CTau (k : Z) | CFastest (h : heap) (k : Z) | CNeigh (k : Z)
| CMembers | CResolutions | CIncrements.
Inductive cans :=
| CDone | CCluster (c : cluster) | CBool (b : bool) | CInt (z : Z) | CIdList (l : list Z) | CNum (x : num)
| CLists (m : umap (list Z)) | CNums (m : umap num).
Definition cspec (f : amap cluster) (o : cop) (r : res cans) (f' : amap cluster) : Prop :=
  match o with
  | CAdd c => adds f CDone (c_id c) c r f'
  | CAdds l => adds_all CDone (fun c => Some (c_id c)) f l r f'
  | CGet k => asks f k (fun c => Ok (CCluster c)) r f'
  | CErase k => r = Ok CDone /\ f' = drop f k
  | CSize => f' = f /\ exists l, lists f l /\ r = Ok (CInt (Z.of_nat (length l)))
  | CExist k => f' = f /\ r = Ok (CBool (match f k with Some _ => true | None => false end))
  | CIds => f' = f /\ exists l, lists f l /\ r = Ok (CIdList l)
  | CIsOccupied k => asks f k (fun c => Ok (CBool (0 <? c_occ c))) r f'
  | CVacate k => tells f k CDone (fun c => c_with_occ (c_occ c - 1) c) r f'
  | COccupy k => tells f k CDone (fun c => c_with_occ (c_occ c + 1) (c_with_visits (c_visits c + 1) c)) r f'
  | CTau k => asks f k (fun c => Ok (CNum (c_tau c))) r f'
  | CFastest h k => asks f k (fun c => Ok (CNum (c_fastestOff h c))) r f'
  | CNeigh k => asks f k (fun c => Ok (CIdList (map fst (c_pnbr c)))) r f'
  | CMembers => f' = f /\ exists m, r = Ok (CLists m) /\ holds f (fun c => ukeys (c_sites c)) m
  | CResolutions => f' = f /\ exists m, r = Ok (CNums m) /\ holds f c_res m
  | CIncrements => f' = f /\ exists m, r = Ok (CNums m) /\ holds f c_inc m
  end.
End Spec.
