(** * Specification: kinetic Monte Carlo in double arithmetic (C84) *)
From Coq Require Import ZArith List Bool Reals Floats.
From Verif Require Import Base Num F64 RSum SiteModel WalkerModel BasinModel SystemModel SystemSpec FloatSpec.
Import ListNotations.
Open Scope Z_scope.

Section Kmc.
Context {I : Impl} {N : Num} {G : Rng}.
(** the user's rates: for every site its neighbours and the address of the rate *)
Variable rates : umap (umap Z).
(** the site that is drawn at a site with a number, and the time that is waited *)
Variable choose : Z -> num -> Z.
Variable delay : Z -> num -> num.

(** a walker stands on a site, waits, and then wants to go to another *)
Record hopper := mkHopper { on : Z; aim : Z; wait : num }.
(** the walkers, the stream of random numbers of each site, and how often walkers
    came to (or stayed on) each site *)
Record kmc := mkKmc { walkers : list (Z * hopper); stream : Z -> eng; arrivals : Z -> Z }.

Definition set {A} (f : Z -> A) (k : Z) (a : A) : Z -> A := fun j => if j =? k then a else f j.
Definition someone (k : Z) (l : list (Z * hopper)) : bool := existsb (fun e => on (snd e) =? k) l.
Definition seek (p : Z) (l : list (Z * hopper)) : option hopper :=
  match find (fun e => fst e =? p) l with Some e => Some (snd e) | None => None end.
Definition a_site (k : Z) : bool := existsb (Z.eqb k) (ukeys rates).

(** A walker comes to [k] or stays there: it waits, and then wants to go to the
    site drawn; both from the stream of the site.  [None] if the number drawn
    gives no site. *)
Definition settle (k : Z) (K : kmc) : option (hopper * kmc) :=
  let (u, e) := edraw (stream K k) in
  let (v, e') := edraw e in
  if a_site (choose k v) then
    Some (mkHopper k (choose k v) (delay k u), mkKmc (walkers K) (set (stream K) k e') (set (arrivals K) k (arrivals K k + 1)))
  else None.

(** walker [p] enters at [k], makes the hop it waited for, or leaves *)
Inductive event := Enter (id p k : Z) | Hop (id p : Z) | Leave (id p : Z).
Definition kmc_step (v : event) (K : kmc) : option kmc :=
  match v with
  | Enter _ p k =>
      match seek p (walkers K) with
      | Some _ => None
      | None =>
          if someone k (walkers K) || negb (a_site k) then None
          else match settle k K with
               | Some (w, K') => Some (mkKmc ((p, w) :: walkers K) (stream K') (arrivals K'))
               | None => None
               end
      end
  | Hop _ p =>
      match seek p (walkers K) with
      | None => None
      | Some w =>
          (* only a free site can be entered *)
          match settle (if someone (aim w) (walkers K) then on w else aim w) K with
          | Some (w', K') => Some (mkKmc (map (fun e => if fst e =? p then (p, w') else e) (walkers K)) (stream K') (arrivals K'))
          | None => None
          end
      end
  | Leave _ p =>
      match seek p (walkers K) with
      | None => None
      | Some _ => Some (mkKmc (filter (fun e => negb (fst e =? p)) (walkers K)) (stream K) (arrivals K))
      end
  end.
Fixpoint kmc_run (l : list event) (K : kmc) : option kmc :=
  match l with [] => Some K | v :: r => match kmc_step v K with Some K' => kmc_run r K' | None => None end end.
Definition empty (s : Z -> eng) : kmc := mkKmc [] s (fun _ => 0).
Definition is_hop_event (v : event) : bool := match v with Hop _ _ => true | _ => false end.
Definition hop_events (l : list event) : Z := Z.of_nat (length (filter is_hop_event l)).

(** ** The library driven by the same events *)
Section Drive.
Context {U : Ugly}.
Variable clk : Z -> Z.
(** perhaps setMinCoarseGrainIterationThreshold, setTimeResolution, perhaps
    setRandomSeed, initializeSystem *)
Definition prologue (thr : option Z) (t : num) (seed : option Z) : M world unit :=
  (match thr with Some b => sys_setThreshold b | None => ret tt end) ;;
  sys_setTimeResolution t ;;
  (match seed with Some s => sys_setRandomSeed s | None => ret tt end) ;;
  sys_initializeSystem clk rates.
(** hops after which the first search for a cluster is made: the threshold that was
    set, else 1000 (coarsegrainsystem.cpp:53-64) *)
Definition search_after (thr : option Z) : Z := match thr with Some b => b | None => 1000 end.
(** a new walker is put on a site and given to initializeWalkers; hop;
    removeWalkerFromSystem *)
Definition drive (fuel : nat) (v : event) : M world unit :=
  match v with
  | Enter id p k =>
      modify (fun g => g_with_walkers (uset (g_walkers g) p (mkWalker k unassignedId (nofZ (-1)))) g) ;;
      sys_initializeWalkers [(id, p)]
  | Hop id p => sys_hop clk fuel id p
  | Leave id p => sys_removeWalker clk id p
  end.
(** what the user sees: every walker's site, potential site and dwell time, every
    site's visits and whether it is occupied, and no clusters *)
Definition shows (g : world) (K : kmc) : Prop :=
  (forall p w, In (p, w) (walkers K) -> ulookup p (g_walkers g) = Some (mkWalker (on w) (aim w) (wait w))) /\
  (forall k, In k (ukeys rates) -> visits g k (arrivals K k) /\ taken g k (someone k (walkers K))) /\
  sys_getClusters g = Ret [] g.
End Drive.
End Kmc.

(** ** Doubles *)
Open Scope R_scope.
Section Doubles.
Context {lnf : float -> float} {G : @Rng (F64 lnf)}.
Variable h : Z -> float.
Variable rates : umap (umap Z).
(** distinct sites with rates between 2^-400 and 2^400, each of which leads to a
    site with rates; the reserved id is not used *)
Definition network64 : Prop :=
  NoDup (ukeys rates) /\ ~ In unassignedId (ukeys rates) /\
  forall k r, In (k, r) rates -> good_doubles h r /\ forall n, In n (ukeys r) -> In n (ukeys rates).
(** numbers of the streams *)
Definition drawn (d : float) : Prop := exists e e' : @eng (F64 lnf) G, edraw e = (d, e') /\ fin d /\ 0 <= fval d < 1.
(** Every neighbour has an interval of numbers as long as its share of the rates,
    and is drawn by the numbers of its interval, up to a margin at the ends of
    the interval; every number gives a neighbour, up to a margin at 1 where it
    may give -1.  With n neighbours the margin is (3n + 1) times 2^-52. *)
Definition nearly_fair (choose : Z -> float -> Z) : Prop :=
  forall k r, In (k, r) rates ->
    let margin := INR (3 * length r + 1) * (2 * uround) in
    (forall d, drawn d -> fval d < 1 - margin -> In (choose k d) (ukeys r)) /\
    exists lo : Z -> R,
      (forall j a, In (j, a) r -> 0 <= lo j /\ lo j + exact_prob h r a <= 1) /\
      (forall j a j' a', In (j, a) r -> In (j', a') r -> j <> j' ->
         lo j + exact_prob h r a <= lo j' \/ lo j' + exact_prob h r a' <= lo j) /\
      (forall d j a, drawn d -> In (j, a) r ->
         (lo j + margin <= fval d < lo j + exact_prob h r a - margin -> choose k d = j) /\
         (choose k d = j -> j <> (-1)%Z -> lo j - margin <= fval d < lo j + exact_prob h r a + margin)).
(** The time waited is -ln d / (sum of the rates), up to 2n + 6 times 2^-52 of it *)
Definition nearly_exponential (delay : Z -> float -> float) : Prop :=
  forall k r d, In (k, r) rates -> drawn d -> 0 < fval d -> log_correct lnf d ->
    fin (delay k d) /\ 0 < fval (delay k d) /\
    near (2 * length r + 6) (- ln (fval d) / exact_total h r) (fval (delay k d)).
End Doubles.
