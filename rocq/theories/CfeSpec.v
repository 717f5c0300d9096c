(** CfeSpec.v — the combined fuzzy entropy of a clustering in closed form (C116).  Nothing here is used by the model. *)
From Coq Require Import Reals.
From Verif Require Import Base Spec.
Local Open Scope R_scope.

Definition lg (x : R) : R := ln x / ln 2.
(** how undecided a membership is *)
Definition undecided (u : R) : R := - (u * lg u + (1 - u) * lg (1 - u)).
(** how far a membership is from the middle of it and another one *)
Definition apart (u v : R) : R := u * lg (u / ((u + v) / 2)) + (1 - u) * lg ((1 - u) / (1 - (u + v) / 2)).
Definition rows_apart (r s : list R) : R := Rsum (map (fun p => apart (fst p) (snd p)) (combine r s)).
Definition square (x : R) : R := x * x.
Definition average (data : list R) : R := Rsum data / INR (length data).
(** sum of the squared distances from the mean *)
Definition spread (data : list R) : R := Rsum (map (fun x => square (x - average data)) data).

(** a clustering: for every cluster the memberships of the points and the centre *)
Definition clustering := list (list R * R).
Definition sum_over (l : clustering) (f : list R * R -> R) : R := Rsum (map f l).
Definition undecidedness (data : list R) (l : clustering) : R :=
  sum_over l (fun c => Rsum (map undecided (fst c)) / INR (length data)) / INR (length l).
Definition separation (l : clustering) : R :=
  2 / (INR (length l) * (INR (length l) - 1)) * (2 * sum_over l (fun c => sum_over l (fun d => rows_apart (fst c) (fst d)))).
(** how far the centres are from the mean *)
Definition between (data : list R) (l : clustering) : R := sum_over l (fun c => Rsum (fst c) * square (snd c - average data)).
Definition grouping (data : list R) (l : clustering) : R :=
  between data l / (INR (length l) - 1) *
  ((INR (length data) - INR (length l)) / (INR (length data) * (spread data + between data l))).
Definition combined (data : list R) (l : clustering) : R := (separation l / undecidedness data l + grouping data l) / 2.
(** how far the points are from the centres of the clusters they belong to *)
Definition within (data : list R) (l : clustering) : R :=
  sum_over l (fun c => Rsum (map (fun p => snd p * square (fst p - snd c)) (combine data (fst c)))).
