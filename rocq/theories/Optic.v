(** The optic tree of batoid/optic.py. *)
From Coq Require Import List ZArith Bool String Ascii DecimalString.
From Verif Require Import Num Vec CoordSys Surface Medium Obscuration Ray Bundle.
Import ListNotations.

(** Python exceptions as values. *)
Inductive exn := ValueError | KeyError | RuntimeError | AssertionError | TypeError
               | AttributeError | IndexError | ZeroDivisionError | NameError | LinAlgError
               | OutOfFuel.
Inductive res (A : Type) := Ok (a : A) | Err (e : exn).
Arguments Ok {A}. Arguments Err {A}.
Definition bind {A B} (r : res A) (f : A -> res B) : res B :=
  match r with Ok a => f a | Err e => Err e end.
Notation "'do' x <- r ; k" := (bind r (fun x => k)) (at level 200, x pattern at level 0, r at level 100).

(** The classes of Interface: Interface 94-755, RefractiveInterface 758-793,
    Mirror 796-819, Detector 822-841, Baffle 844-860, OPDScreen 863-926. *)
Inductive ikind (T : Type) :=
| KInterface | KRefractive | KMirror | KDetector | KBaffle | KScreen (screen : surface T).
Arguments KInterface {T}. Arguments KRefractive {T}. Arguments KMirror {T}.
Arguments KDetector {T}. Arguments KBaffle {T}. Arguments KScreen {T}.

(** The attributes of an Interface object (batoid/optic.py:38-46, 115-119,
    763-770 etc.).  [i_fwd], [i_rev] are forwardCoating, reverseCoating (None when
    the attribute is absent or None).  Names are strings (None is not modelled);
    drawing attributes and a stopSurface attribute of an Interface are left out. *)
Record iface (T : Type) := IF {
  i_kind : ikind T; i_surf : surface T; i_name : string; i_cs : coordsys T;
  i_obsc : option (obsc T); i_in : medium T; i_out : medium T;
  i_fwd : option (coating T); i_rev : option (coating T); i_skip : bool }.
Arguments IF {T}. Arguments i_kind {T}. Arguments i_surf {T}. Arguments i_name {T}.
Arguments i_cs {T}. Arguments i_obsc {T}. Arguments i_in {T}. Arguments i_out {T}.
Arguments i_fwd {T}. Arguments i_rev {T}. Arguments i_skip {T}.

(** The attributes of a CompoundOptic apart from items (batoid/optic.py:941-944);
    [c_lens]: the object is a Lens (1748-1761); [c_stop]: the optional attribute
    stopSurface, restricted to an Interface. *)
Record cattr (T : Type) := CA {
  c_lens : bool; c_name : string; c_cs : coordsys T; c_in : medium T; c_out : medium T;
  c_skip : bool; c_stop : option (iface T) }.
Arguments CA {T}. Arguments c_lens {T}. Arguments c_name {T}. Arguments c_cs {T}.
Arguments c_in {T}. Arguments c_out {T}. Arguments c_skip {T}. Arguments c_stop {T}.

Inductive optic (T : Type) :=
| Iface (i : iface T)
| Compound (a : cattr T) (items : list (optic T)).
Arguments Iface {T}. Arguments Compound {T}.

(** item.name, item.skip, item.coordSys (batoid/optic.py:40-44). *)
Definition o_name {T} (o : optic T) : string :=
  match o with Iface i => i_name i | Compound a _ => c_name a end.
Definition o_skip {T} (o : optic T) : bool :=
  match o with Iface i => i_skip i | Compound a _ => c_skip a end.
Definition o_cs {T} (o : optic T) : coordsys T :=
  match o with Iface i => i_cs i | Compound a _ => c_cs a end.

(** Names: self.name + '.' + item.name (batoid/optic.py:964). *)
Definition dot (a b : string) : string := (a ++ "." ++ b)%string.

(** A Python dict: insertion-ordered association list, assignment overwrites in
    place (batoid/optic.py:961-967, 1115-1124). *)
Fixpoint dict_set {V} (k : string) (v : V) (d : list (string * V)) : list (string * V) :=
  match d with
  | [] => [(k, v)]
  | (k', v') :: d => if String.eqb k k' then (k, v) :: d else (k', v') :: dict_set k v d
  end.
Fixpoint dict_get {V} (k : string) (d : list (string * V)) : option V :=
  match d with
  | [] => None
  | (k', v) :: d => if String.eqb k k' then Some v else dict_get k d
  end.
(** del d[k]; k is present at the only call (batoid/optic.py:1005-1006). *)
Definition dict_del {V} (k : string) (d : list (string * V)) : list (string * V) :=
  filter (fun p => negb (String.eqb k (fst p))) d.

(** str.split('.') (batoid/optic.py:996). *)
Fixpoint split_dots (s : string) : list string :=
  match s with
  | EmptyString => [EmptyString]
  | String c s' =>
      if Ascii.eqb c "."%char then EmptyString :: split_dots s'
      else match split_dots s' with
           | [] => [String c EmptyString]
           | t :: ts => String c t :: ts
           end
  end.

Section Names.
  Context {T : Type}.
  (** itemDict (batoid/optic.py:946-968); Interface has no itemDict (965). *)
  Fixpoint itemDict (o : optic T) : list (string * optic T) :=
    match o with
    | Iface _ => []
    | Compound a items =>
        fold_left (fun out item =>
          let out := dict_set (dot (c_name a) (o_name item)) item out in
          fold_left (fun out kv => dict_set (dot (c_name a) (fst kv)) (snd kv) out)
                    (itemDict item) out)
          items [(c_name a, o)]
    end.

  (** shortNames of a key (batoid/optic.py:996-999): last token, then each longer
      trailing join. [ts] is reversed(tokens[:-1]). *)
  Fixpoint short_loop (ts : list string) (last : string) (acc : list string) : list string :=
    match ts with
    | [] => acc
    | t :: ts => let n := dot t last in short_loop ts n (acc ++ [n])
    end.
  Definition shortNames (k : string) : list string :=
    match rev (split_dots k) with
    | [] => []
    | l :: ts => short_loop ts l [l]
    end.
  (** _names (batoid/optic.py:990-1007); [duplicates] as a list. *)
  Definition names_step (k : string) (st : list (string * string) * list string) (sn : string) :=
    let '(d, dup) := st in
    match dict_get sn d with
    | Some _ => (d, sn :: dup)
    | None => (dict_set sn k d, dup)
    end.
  Definition names_of_keys (keys : list string) : list (string * string) :=
    let '(d, dup) :=
      fold_left (fun st k => fold_left (names_step k) (shortNames k) st) keys ([], []) in
    fold_left (fun d n => dict_del n d) dup d.
  Definition names (o : optic T) : list (string * string) :=
    names_of_keys (map fst (itemDict o)).

  (** __getitem__ (batoid/optic.py:970-988); an Interface is not subscriptable. *)
  Definition getitem (o : optic T) (key : string) : res (optic T) :=
    match o with
    | Iface _ => Err TypeError
    | Compound _ _ =>
        match dict_get key (itemDict o) with
        | Some it => Ok it
        | None =>
            match dict_get key (names o) with
            | None => Err ValueError
            | Some full => match dict_get full (itemDict o) with
                           | Some it => Ok it
                           | None => Err ValueError
                           end
            end
        end
    end.
  (** path attribute (batoid/optic.py:117, 944). *)
  Fixpoint default_path (o : optic T) : list string :=
    match o with
    | Iface i => [i_name i]
    | Compound _ items => flat_map default_path items
    end.
End Names.

(** Decimal rendering of a count, '{}'.format(j) (batoid/optic.py:1167). *)
Definition dec (j : nat) : string := NilEmpty.string_of_uint (Nat.to_uint j).

Section Trace.
  Context {T : Type} {NT : Num T}.
  Variable niter : nat.        (* global_vars._batoid_niter (batoid/global_vars.py:9) *)

  (** interact: Interface 541-543 (also Detector, Baffle), RefractiveInterface
      772-777, Mirror 810-812, OPDScreen 913-919.  No coating is passed. *)
  Definition interact (i : iface T) (reverse : bool) (rv : rayvec T) : rayvec T :=
    let cs := Some (i_cs i) in
    match i_kind i with
    | KRefractive =>
        let '(m1, m2) := if reverse then (i_out i, i_in i) else (i_in i, i_out i) in
        rv_refract niter (i_surf i) m1 m2 cs None rv
    | KMirror => rv_reflect niter (i_surf i) cs None rv
    | KScreen screen => rv_screen niter (i_surf i) screen cs rv
    | KInterface | KDetector | KBaffle => rv_intersect niter (i_surf i) cs None rv
    end.
  (** if obscuration is not None: obscure (batoid/optic.py:421-422). *)
  Definition apply_obsc (o : option (obsc T)) (rv : rayvec T) : rayvec T :=
    match o with None => rv | Some o => rv_obscure o rv end.
  (** Interface.trace (batoid/optic.py:391-424). *)
  Definition iface_trace (i : iface T) (reverse : bool) (rv : rayvec T) : rayvec T :=
    apply_obsc (i_obsc i) (interact i reverse rv).

  (** CompoundOptic.trace with path=None (batoid/optic.py:1041-1045); reversed()
      traversal is the fold_right. *)
  Fixpoint trace (o : optic T) (reverse : bool) (rv : rayvec T) {struct o} : rayvec T :=
    match o with
    | Iface i => iface_trace i reverse rv
    | Compound _ items =>
        let step it rv := if o_skip it then rv else trace it reverse rv in
        if reverse then fold_right (fun it rv => step it rv) rv items
        else fold_left (fun rv it => step it rv) items rv
    end.

  (** One entry of the result of traceFull. *)
  Record tf_entry := TF { tf_name : string; tf_in : rayvec T; tf_out : rayvec T }.
  (** traceFull with path=None: Interface 457-464, CompoundOptic 1115-1124. *)
  Definition tf_step (tf : list (string * tf_entry))
      (st : list (string * tf_entry) * rayvec T) : list (string * tf_entry) * rayvec T :=
    fold_left (fun '(result, _) '(k, v) => (dict_set k v result, tf_out v)) tf st.
  Fixpoint traceFull (o : optic T) (reverse : bool) (rv : rayvec T) {struct o}
      : list (string * tf_entry) :=
    match o with
    | Iface i =>
        if i_skip i then []
        else [(i_name i, TF (i_name i) rv (iface_trace i reverse rv))]
    | Compound a items =>
        if c_skip a then [] else
        let step it st := tf_step (traceFull it reverse (snd st)) st in
        fst (if reverse then fold_right (fun it st => step it st) ([], rv) items
             else fold_left (fun st it => step it st) items ([], rv))
    end.

  (** nominalOrder (batoid/optic.py:1049-1054). *)
  Definition nominalOrder (path : list string) : list (string * nat) :=
    snd (fold_left (fun '(i, d) n => match dict_get n d with
                                     | Some _ => (i, d)
                                     | None => (S i, dict_set n i d)
                                     end) path (0, [])).
  Inductive direction := Forward | Reverse.
  Definition dir_eqb (a b : direction) : bool :=
    match a, b with Forward, Forward | Reverse, Reverse => true | _, _ => false end.
  Definition is_rev (d : direction) : bool := match d with Reverse => true | Forward => false end.
  (** "logic to decide when to reverse direction" (batoid/optic.py:1061-1071).
      The dict reads cannot fail: every name of path is a key. *)
  Definition nextDirection (order : list (string * nat)) (cur : string) (rest : list string)
      (d : direction) : direction :=
    let ord n := match dict_get n order with Some k => k | None => 0 end in
    match rest with
    | [] => if Nat.eqb (ord cur) 0 then Reverse else d
    | nxt :: _ => if Nat.ltb (ord nxt) (ord cur) then Reverse else Forward
    end.
  (** item.surface.reflect(...); if item.obscuration: ... (batoid/optic.py:1076-1078). *)
  Definition turn_around (item : optic T) (rv : rayvec T) : res (rayvec T) :=
    match item with
    | Iface i => Ok (apply_obsc (i_obsc i) (rv_reflect niter (i_surf i) (Some (i_cs i)) None rv))
    | Compound _ _ => Err AttributeError
    end.
  Fixpoint path_loop (self : optic T) (order : list (string * nat)) (path : list string)
      (d : direction) (rv : rayvec T) : res (rayvec T) :=
    match path with
    | [] => Ok rv
    | cur :: rest =>
        do item <- getitem self cur;
        let nd := nextDirection order cur rest d in
        if dir_eqb d nd then path_loop self order rest d (trace item (is_rev d) rv)
        else do rv <- turn_around item rv; path_loop self order rest nd rv
    end.
  (** CompoundOptic.trace with a path (batoid/optic.py:1046-1079). *)
  Definition trace_path (self : optic T) (path : list string) (rv : rayvec T) : res (rayvec T) :=
    path_loop self (nominalOrder path) path Forward rv.

  (** The output key item.name_0, item.name_1, ... (batoid/optic.py:1166-1170).
      Fuel bounds the search; the number of keys always suffices. *)
  Fixpoint fresh_key (fuel j : nat) (name : string) (d : list (string * tf_entry)) : string :=
    let key := (name ++ "_" ++ dec j)%string in
    match fuel with
    | O => key
    | S fuel => match dict_get key d with
                | Some _ => fresh_key fuel (S j) name d
                | None => key
                end
    end.
  Fixpoint full_path_loop (self : optic T) (order : list (string * nat)) (path : list string)
      (d : direction) (rv : rayvec T) (result : list (string * tf_entry))
      : res (list (string * tf_entry)) :=
    match path with
    | [] => Ok result
    | cur :: rest =>
        do item <- getitem self cur;
        let nd := nextDirection order cur rest d in
        do rv_out <- (if dir_eqb d nd then Ok (trace item (is_rev d) rv) else turn_around item rv);
        let key := fresh_key (List.length result) 0 (o_name item) result in
        let result := dict_set key (TF (o_name item) rv rv_out) result in
        full_path_loop self order rest nd rv_out result
    end.
  (** CompoundOptic.traceFull with a path (batoid/optic.py:1125-1178). *)
  Definition traceFull_path (self : optic T) (path : list string) (rv : rayvec T)
      : res (list (string * tf_entry)) :=
    full_path_loop self (nominalOrder path) path Forward rv [].

  (** A RayVector with its optional .path attribute (batoid/optic.py:518-528). *)
  Record prv := PRV { p_rv : rayvec T; p_path : option (list string) }.

  (** rSplit of each class: RefractiveInterface 782-793 (note which coating goes
      with which direction), Mirror 817-819, Detector 836-841, Baffle 859-860,
      OPDScreen 924-926 (Surface has no interact: AttributeError); the base class
      Interface has no rSplit (AttributeError).  A coating that is None makes
      coating._coating fail (batoid/trace.py:130). *)
  Definition rSplit (i : iface T) (reverse : bool) (rv : rayvec T)
      : res (option (rayvec T) * option (rayvec T)) :=
    let cs := Some (i_cs i) in
    let split m1 m2 c :=
      match c with
      | None => Err AttributeError
      | Some c => let '(a, b) := rv_rsplit niter (i_surf i) m1 m2 c cs rv in Ok (Some a, Some b)
      end in
    match i_kind i with
    | KRefractive => if reverse then split (i_out i) (i_in i) (i_fwd i)
                     else split (i_in i) (i_out i) (i_rev i)
    | KMirror => Ok (None, Some (rv_reflect niter (i_surf i) cs None rv))
    | KDetector => if reverse then Err AssertionError else split (i_in i) (i_out i) (i_fwd i)
    | KBaffle => Ok (Some (rv_intersect niter (i_surf i) cs None rv), None)
    | KScreen _ | KInterface => Err AttributeError
    end.

  (** [return rv, None] of a skipped optic (batoid/optic.py:505-509, 1226-1230)
      is not a pair of lists: the caller's list comprehension over None raises
      TypeError (1248-1249). *)
  Inductive split_out := Lists (f r : list (option prv)) | Skipped (f r : option prv).

  Definition add_path (p : option (list string)) (n : string) : list string :=
    match p with None => [n] | Some l => l ++ [n] end.
  (** Interface.traceSplit (batoid/optic.py:466-535). *)
  Definition iface_split (i : iface T) (reverse : bool) (x : prv) : res split_out :=
    if i_skip i then Ok (if reverse then Skipped None (Some x) else Skipped (Some x) None)
    else
      do (refracted, reflected) <- rSplit i reverse (p_rv x);
      let fin := option_map (fun rv => PRV (apply_obsc (i_obsc i) rv)
                                           (Some (add_path (p_path x) (i_name i)))) in
      let f := [fin refracted] in
      let r := [fin reflected] in
      let '(f, r) := if reverse then (r, f) else (f, r) in
      let '(f, r) := match i_kind i with KMirror => (r, f) | _ => (f, r) end in
      Ok (Lists f r).

  (** [i for i in rForward if i]: drop None and empty RayVectors
      (batoid/optic.py:1248-1249, RayVector.__len__). *)
  Definition keep_some (l : list (option prv)) : list prv :=
    flat_map (fun o => match o with
                       | Some x => match rays (p_rv x) with [] => [] | _ => [x] end
                       | None => []
                       end) l.
  (** w = ~rr.vignetted & (rr.flux >= minFlux) (batoid/optic.py:1252-1262). *)
  Definition alive (minFlux : T) (r : ray T) : bool := negb (vignetted r) && nleb minFlux (flux r).
  Definition prune (minFlux : T) (x : prv) : prv :=
    PRV (RV (filter (alive minFlux) (rays (p_rv x))) (rvcs (p_rv x))) (p_path x).
  Definition nonempty (x : prv) : bool := match rays (p_rv x) with [] => false | _ => true end.

  (** The work loop of CompoundOptic.traceSplit (batoid/optic.py:1240-1276).
      The queue is a stack: append at the end, pop from the end; here the head of
      the list is the end.  [fs] holds the traceSplit of each item. *)
  Fixpoint split_loop (fs : list (bool -> prv -> res split_out)) (minFlux : T) (fuel : nat)
      (queue : list (prv * bool * nat)) (outF outR : list prv) : res (list prv * list prv) :=
    match queue with
    | [] => Ok (outF, outR)
    | (rays_, rev_, idx) :: queue =>
        match fuel with
        | O => Err OutOfFuel
        | S fuel =>
            match nth_error fs idx with
            | None => Err IndexError
            | Some f =>
                do so <- f rev_ rays_;
                match so with
                | Skipped _ _ => Err TypeError
                | Lists fo re =>
                    let fo := filter nonempty (map (prune minFlux) (keep_some fo)) in
                    let re := filter nonempty (map (prune minFlux) (keep_some re)) in
                    let '(queue, outF) :=
                      if Nat.eqb (S idx) (List.length fs) then (queue, outF ++ fo)
                      else (rev (map (fun x => (x, false, S idx)) fo) ++ queue, outF) in
                    let '(queue, outR) :=
                      if Nat.eqb idx 0 then (queue, outR ++ re)
                      else (rev (map (fun x => (x, true, idx - 1)) re) ++ queue, outR) in
                    split_loop fs minFlux fuel queue outF outR
                end
            end
        end
    end.
  (** CompoundOptic.traceSplit (batoid/optic.py:1180-1276).  [self.items[0]] of an
      empty compound raises IndexError. *)
  Fixpoint traceSplit (minFlux : T) (fuel : nat) (o : optic T) (reverse : bool) (x : prv) {struct o}
      : res split_out :=
    match o with
    | Iface i => iface_split i reverse x
    | Compound a items =>
        if c_skip a then Ok (if reverse then Skipped None (Some x) else Skipped (Some x) None)
        else
          let fs := map (fun it => traceSplit minFlux fuel it) items in
          let start := if reverse then List.length items - 1 else 0 in
          do (f, r) <- split_loop fs minFlux fuel [(x, reverse, start)] [] [];
          Ok (Lists (map Some f) (map Some r))
    end.
End Trace.
Arguments tf_entry T : clear implicits.
Arguments prv T : clear implicits.
Arguments split_out T : clear implicits.

Section With.
  Context {T : Type} {NT : Num T}.

  (** The constructors: Optic.__init__ sets skip to False (batoid/optic.py:44);
      the subclasses set their default coatings after Interface.__init__
      (763-770, 801-808, 829-834, 850-857), so coatings passed as keyword
      arguments survive only for Interface and OPDScreen. *)
  Definition mkIface (k : ikind T) (s : surface T) (name : string) (cs : coordsys T)
      (ob : option (obsc T)) (mi mo : medium T) (fwd rev : option (coating T))
      (skip : bool) : iface T :=
    let c01 := Some (SimpleCoating n0 n1) in
    let c10 := Some (SimpleCoating n1 n0) in
    let '(f, r) := match k with
                   | KRefractive | KBaffle => (c01, c01)
                   | KMirror => (c10, c10)
                   | KDetector => (c01, None)
                   | KInterface | KScreen _ => (fwd, rev)
                   end in
    IF k s name cs ob mi mo f r false.
  (** CompoundOptic.__init__ / Lens.__init__ (batoid/optic.py:941-944, 1758-1761).
      A Lens asserts two items; its assertion on media is left out (no operation
      modelled here changes media). *)
  Definition mkCompound (a : cattr T) (items : list (optic T)) : res (optic T) :=
    if c_lens a && negb (Nat.eqb (List.length items) 2) then Err AssertionError
    else Ok (Compound (CA (c_lens a) (c_name a) (c_cs a) (c_in a) (c_out a) false (c_stop a)) items).

  (** newDict with coordSys/surface replaced, then __init__ (batoid/optic.py:585-597,
      638-654, 678-692, 707-711). *)
  Definition i_rebuild (i : iface T) (cs : coordsys T) (s : surface T) : iface T :=
    mkIface (i_kind i) s (i_name i) cs (i_obsc i) (i_in i) (i_out i) (i_fwd i) (i_rev i) (i_skip i).

  (** Interface.withGlobalShift / withLocalShift / withGlobalRotation /
      withLocalRotation / withSurface (batoid/optic.py:571-711). *)
  Definition i_withGlobalShift (shift : vec3 T) (i : iface T) : iface T :=
    i_rebuild i (shiftGlobal (i_cs i) shift) (i_surf i).
  Definition i_withLocalShift (shift : vec3 T) (i : iface T) : iface T :=
    i_withGlobalShift (mv (rot (i_cs i)) shift) i.
  Definition i_withGlobalRotation (r : mat3 T) (center : vec3 T) (cs : coordsys T)
      (i : iface T) : iface T :=
    i_rebuild i (rotateGlobal (i_cs i) r center (Some cs)) (i_surf i).
  Definition i_withLocalRotation (r : mat3 T) (center : vec3 T) (cs : option (coordsys T))
      (i : iface T) : iface T :=
    let cs := match cs with None => i_cs i | Some c => c end in
    i_rebuild i (rotateLocal (i_cs i) r center (Some cs)) (i_surf i).
  Definition i_withSurface (s : surface T) (i : iface T) : iface T :=
    i_rebuild i (i_cs i) s.

  (** CompoundOptic.withGlobalShift (batoid/optic.py:1358-1387).  The Lens
      assertion is re-evaluated on a list of the same length, so it cannot newly
      fail; the object is built directly. *)
  Fixpoint withGlobalShift (shift : vec3 T) (o : optic T) : optic T :=
    match o with
    | Iface i => Iface (i_withGlobalShift shift i)
    | Compound a items =>
        Compound (CA (c_lens a) (c_name a) (shiftGlobal (c_cs a) shift) (c_in a) (c_out a) false
                     (option_map (i_withGlobalShift shift) (c_stop a)))
                 (map (withGlobalShift shift) items)
    end.
  (** withLocalShift (batoid/optic.py:599-614, 1389-1404). *)
  Definition withLocalShift (shift : vec3 T) (o : optic T) : optic T :=
    withGlobalShift (mv (rot (o_cs o)) shift) o.
  (** CompoundOptic.withGlobalRotation (batoid/optic.py:1479-1528). *)
  Fixpoint withGlobalRotation (r : mat3 T) (center : vec3 T) (cs : coordsys T) (o : optic T)
      : optic T :=
    match o with
    | Iface i => Iface (i_withGlobalRotation r center cs i)
    | Compound a items =>
        Compound (CA (c_lens a) (c_name a) (rotateGlobal (c_cs a) r center (Some cs))
                     (c_in a) (c_out a) false
                     (option_map (i_withGlobalRotation r center cs) (c_stop a)))
                 (map (withGlobalRotation r center cs) items)
    end.
  (** withLocalRotation: Interface 656-692, CompoundOptic 1530-1557. *)
  Definition withLocalRotation (r : mat3 T) (center : vec3 T) (cs : option (coordsys T))
      (o : optic T) : optic T :=
    match o with
    | Iface i => Iface (i_withLocalRotation r center cs i)
    | Compound a _ =>
        let k := match cs with None => c_cs a | Some k => k end in
        withGlobalRotation (mm (mm (rot (c_cs a)) r) (mtr (rot (c_cs a)))) center k o
    end.

  (** The shared traversal of withGloballyShiftedOptic (batoid/optic.py:1427-1453),
      withLocallyRotatedOptic (1586-1620) and withSurface (1638-1662).
      [op] is applied to the item whose name matches; [on_self] to the optic
      itself ([None]: withSurface, whose assertion then fails); [missing] is the
      exception raised when the traversal descends into an Interface. *)
  Fixpoint withNamed (op : optic T -> res (optic T))
      (on_self : option (optic T -> res (optic T))) (missing : exn)
      (o : optic T) (name : string) {struct o} : res (optic T) :=
    match o with
    | Iface _ => Err missing
    | Compound a items =>
        let name := match dict_get name (names o) with Some n => n | None => name end in
        match dict_get name (itemDict o) with
        | None => Err ValueError
        | Some _ =>
            match on_self, String.eqb name (c_name a) with
            | Some f, true => f o
            | _, _ =>
                if negb (String.prefix (c_name a ++ ".") name) then Err AssertionError
                else
                  let k := String.length (c_name a) + 1 in
                  let name := substring k (String.length name - k) name in
                  let fix go (items : list (optic T)) : res (list (optic T)) :=
                    match items with
                    | [] => Err RuntimeError
                    | it :: rest =>
                        if String.prefix (o_name it) name then
                          do it' <- (if String.eqb name (o_name it) then op it
                                     else withNamed op on_self missing it name);
                          Ok (it' :: rest)
                        else do rest' <- go rest; Ok (it :: rest')
                    end in
                  do items' <- go items;
                  mkCompound a items'
            end
        end
    end.

  (** withGloballyShiftedOptic (batoid/optic.py:1406-1453). *)
  Definition withGloballyShiftedOptic (o : optic T) (name : string) (shift : vec3 T)
      : res (optic T) :=
    let f o := Ok (withGlobalShift shift o) in
    withNamed f (Some f) AttributeError o name.
  (** withLocallyShiftedOptic (batoid/optic.py:1455-1477). *)
  Definition withLocallyShiftedOptic (o : optic T) (name : string) (shift : vec3 T)
      : res (optic T) :=
    let full := match dict_get name (names o) with Some n => n | None => name end in
    match dict_get full (itemDict o) with
    | None => Err ValueError
    | Some it => withGloballyShiftedOptic o full (mv (rot (o_cs it)) shift)
    end.
  (** withLocallyRotatedOptic (batoid/optic.py:1559-1620); coordSys None resolves
      to the item's coordinate system at the top level (1591-1592). *)
  Definition withLocallyRotatedOptic (o : optic T) (name : string) (r : mat3 T)
      (center : vec3 T) (cs : option (coordsys T)) : res (optic T) :=
    let full := match dict_get name (names o) with Some n => n | None => name end in
    match dict_get full (itemDict o) with
    | None => Err ValueError
    | Some it =>
        let k := match cs with None => o_cs it | Some k => k end in
        let f o := Ok (withLocalRotation r center (Some k) o) in
        withNamed f (Some f) AttributeError o name
    end.
  (** CompoundOptic.withSurface (batoid/optic.py:1622-1662). *)
  Definition withSurface (o : optic T) (name : string) (s : surface T) : res (optic T) :=
    withNamed (fun it => match it with
                         | Iface i => Ok (Iface (i_withSurface s i))
                         | Compound _ _ => Err TypeError
                         end) None TypeError o name.
  (** Surface.__add__ gives a Sum (batoid/surface.py:160-161); withPerturbedSurface
      (batoid/optic.py:1664-1685). *)
  Definition withPerturbedSurface (o : optic T) (name : string) (p : surface T)
      : res (optic T) :=
    let name := match dict_get name (names o) with Some n => n | None => name end in
    match dict_get name (itemDict o) with
    | None => Err KeyError
    | Some (Compound _ _) => Err AttributeError
    | Some (Iface i) => withSurface o name (Sum [i_surf i; p])
    end.
  (** withInsertedOptic / withRemovedOptic (batoid/optic.py:1687-1745): they compare
      self._names[it.name] with self._names[before]; a missing key raises KeyError. *)
  Fixpoint insert_loop (nm : list (string * string)) (target : option string) (new : optic T)
      (items : list (optic T)) : res (list (optic T)) :=
    match items with
    | [] => Ok []
    | it :: rest =>
        match dict_get (o_name it) nm, target with
        | Some a, Some b =>
            do rest' <- insert_loop nm target new rest;
            Ok (if String.eqb a b then new :: it :: rest' else it :: rest')
        | _, _ => Err KeyError
        end
    end.
  Definition withInsertedOptic (o : optic T) (before : string) (new : optic T) : res (optic T) :=
    match o with
    | Iface _ => Err AttributeError
    | Compound a items =>
        let nm := names o in
        let before := match dict_get before nm with Some n => n | None => before end in
        match dict_get before (itemDict o) with
        | None => Err ValueError
        | Some _ => do l <- insert_loop nm (dict_get before nm) new items; mkCompound a l
        end
    end.
  Fixpoint remove_loop (nm : list (string * string)) (target : option string)
      (items : list (optic T)) : res (list (optic T)) :=
    match items with
    | [] => Ok []
    | it :: rest =>
        match dict_get (o_name it) nm, target with
        | Some a, Some b =>
            do rest' <- remove_loop nm target rest;
            Ok (if String.eqb a b then rest' else it :: rest')
        | _, _ => Err KeyError
        end
    end.
  Definition withRemovedOptic (o : optic T) (item : string) : res (optic T) :=
    match o with
    | Iface _ => Err AttributeError
    | Compound a items =>
        let nm := names o in
        let item := match dict_get item nm with Some n => n | None => item end in
        match dict_get item (itemDict o) with
        | None => Err ValueError
        | Some _ => do l <- remove_loop nm (dict_get item nm) items; mkCompound a l
        end
    end.
End With.
