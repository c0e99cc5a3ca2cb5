(** Specification vocabulary: what a tree holds after a load that failed. *)
From Coq Require Import ZArith List Bool.
From Verif Require Import Base M_Types M_Conv S_Doc S_Json M_Tree S_Tree M_Object M_Pack M_Kept.
Import ListNotations.
Open Scope Z_scope.

(** the parser delivers these events, one after the other *)
Inductive gives {S} (next : S -> res (event * S)) : S -> list event -> S -> Prop :=
| gv_nil s : gives next s [] s
| gv_cons s e s1 es s2 : next s = Ok (e, s1) -> gives next s1 es s2 -> gives next s (e :: es) s2.
(** what matters of an event: of scopes name and kind, of their ends nothing *)
Definition plain_event (e : event) : event :=
  if ty_eqb (v_type (snd e)) TScopeEnd then ev_end
  else if is_scope (v_type (snd e)) then (fst e, val_type (v_type (snd e))) else e.
(** the events, followed by the ends of the scopes that are still open, are a document *)
Definition closed_by (es : list event) (open : nat) (d : doc) : Prop :=
  shaped d /\ is_scope_doc d /\ map plain_event es ++ repeat ev_end open = events d.
(** why reading stops: the parser fails, or there is a scope too many within scopes ([Fuel]: the model is out of steps) *)
Inductive stops {S} (next : S -> res (event * S)) (s : S) (open : nat) : res S -> Prop :=
| st_throw : next s = Err -> stops next s open Err
| st_undef u : next s = UB u -> stops next s open (UB u)
| st_fuel : stops next s open Fuel
| st_deep e s' : next s = Ok (e, s') -> is_scope (v_type (snd e)) = true -> open = 129%nat -> stops next s open Err.
(** the first thing in the input is not the beginning of a scope *)
Inductive no_root {S} (next : S -> res (event * S)) (s : S) : res S -> Prop :=
| nr_stops r : stops next s 0 r -> no_root next s r
| nr_value e s' : next s = Ok (e, s') -> is_scope (v_type (snd e)) = false -> no_root next s Err.

(** the call, made on a tree after others, wrote what it was to write *)
Definition wrote (F : nat) (w : world) (hp : heap_t) (e : tenv) (u : use) : Prop :=
  match u with
  | UStore t v name => exists d e', tree_store F w hp t v name e = (Ok d, e')
  | UPack its => exists d e', tree_pack F w hp its (Some e) = (Ok d, e')
  | ULoad => False
  end.
(** the call, made on a tree after others, threw *)
Definition threw (F : nat) (w : world) (hp : heap_t) (e : tenv) (u : use) : Prop :=
  match u with
  | UStore t v name => exists e', tree_store F w hp t v name e = (Err, e')
  | UPack its => exists e', tree_pack F w hp its (Some e) = (Err, e')
  | ULoad => False
  end.
(** the calls after the last store or pack are loads, and that one, if there is any, wrote what it was to write *)
Definition well_used (F : nat) (w : world) (hp : heap_t) (us : list use) : Prop :=
  Forall (fun u => u = ULoad) us \/ exists a u b, us = a ++ u :: b /\ wrote F w hp (used F w hp a) u /\ Forall (fun u => u = ULoad) b.
(** the root and its values, without what is in its scopes *)
Definition only_values (kn : bytes * node) : bytes * node := (fst kn, mkNode (n_type (snd kn)) (n_values (snd kn)) []).
(** both fail alike, or both succeed *)
Definition alike {A B} (r : res A) (r' : res B) : Prop :=
  match r, r' with Ok _, Ok _ => True | Err, Err => True | UB u, UB u' => u = u' | Fuel, Fuel => True | _, _ => False end.
