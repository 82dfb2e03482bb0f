#!/usr/bin/env python3
"""Write rocq/theories/ResponseData.v and ResponseCert.v from src/legwork/R.npy of the repository (default /repo)."""
import decimal, os, struct, sys
from decimal import Decimal as Dc
from fractions import Fraction as F

repo = sys.argv[1] if len(sys.argv) > 1 else "/repo"
out = os.path.join(os.path.dirname(os.path.abspath(__file__)), "..", "rocq", "theories")
raw = open(os.path.join(repo, "src/legwork/R.npy"), "rb").read()
data = raw[10 + struct.unpack("<H", raw[8:10])[0]:]
v = struct.unpack("<%dd" % (len(data) // 8), data)
n = len(v) // 2
T, K = 10**11, 10**9
X = [int(Dc(repr(a)) * T) for a in v[:n]]
Y = [int(Dc(repr(a)) * T) for a in v[n:]]
assert all(Dc(a) / T == Dc(repr(b)) for a, b in zip(X + Y, v))

# halves of the second derivatives of the not-a-knot cubic spline
decimal.getcontext().prec = 60
x = [Dc(a) / T for a in X]
y = [Dc(a) / T for a in Y]
h = [x[i + 1] - x[i] for i in range(n - 1)]
A, B, C, D = ([Dc(0)] * n for _ in range(4))
for i in range(1, n - 1):
    A[i], B[i], C[i] = h[i - 1], 2 * (h[i - 1] + h[i]), h[i]
    D[i] = 3 * ((y[i + 1] - y[i]) / h[i] - (y[i] - y[i - 1]) / h[i - 1])
r, s = h[0] / h[1], h[-1] / h[-2]
B[1] += A[1] * (1 + r)
C[1] -= A[1] * r
B[n - 2] += C[n - 2] * (1 + s)
A[n - 2] -= C[n - 2] * s
for i in range(2, n - 1):
    m = A[i] / B[i - 1]
    B[i] -= m * C[i - 1]
    D[i] -= m * D[i - 1]
M = [Dc(0)] * n
M[n - 2] = D[n - 2] / B[n - 2]
for i in range(n - 3, 0, -1):
    M[i] = (D[i] - C[i] * M[i + 1]) / B[i]
c = [int((a * K).to_integral_value()) for a in M]
H = [X[i + 1] - X[i] for i in range(n - 1)]
c[0] = round(c[1] - F((c[2] - c[1]) * H[0], H[1]))
c[-1] = round(c[-2] + F((c[-2] - c[-3]) * H[-1], H[-2]))


def wrap(items, per):
    return ";\n".join("  " + "; ".join(items[i:i + per]) for i in range(0, len(items), per))


open(os.path.join(out, "ResponseData.v"), "w").write("""(** ResponseData.v -- the packaged file src/legwork/R.npy (899 abscissae f / f* and 899 values of LISA's response), as the shortest decimals that
    denote its doubles.  Generated by tools/response.py; (x, y) stands for x * 10^-11 and y * 10^-11. *)
From Coq Require Import ZArith Reals List.
From Verif Require Import Num Psd.
Import ListNotations.

Definition response_table : list (Z * Z) := [
""" + wrap(["(%d,%d)" % p for p in zip(X, Y)], 7) + """]%Z.

Definition response_abscissae : list R := map (fun p => IZR (fst p) / IZR 100000000000)%R response_table.
Definition response_values : list R := map (fun p => IZR (snd p) / IZR 100000000000)%R response_table.
(** The installed package has this file (psd.py L40). *)
Definition packaged_response (w : psd_env) : Prop := r_file w = Some (map Fin response_abscissae, map Fin response_values).
""")
open(os.path.join(out, "ResponseCert.v"), "w").write("""(** ResponseCert.v -- approximate halves of the second derivatives of the spline through the table of ResponseData.v, times 10^9.  Generated by
    tools/response.py; what they are used for is checked in ResponseFacts.v. *)
From Coq Require Import ZArith List.
Import ListNotations.

Definition response_cert : list Z := [
""" + wrap(["(%d)" % a if a < 0 else str(a) for a in c], 12) + """]%Z.
""")
