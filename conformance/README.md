# Replaying the unit tests on the model

The scripts read unit tests of the library in /repo as text and write Coq files in which each assertion is a computation
on the model with double arithmetic (`Fops`), proved `= true` by `vm_compute`.  They are not part of the build in `rocq`:
the checker `coqchk` has no virtual machine and would need hours for them.

    cd conformance && mkdir -p /tmp/out
    python3 splines.py /tmp/out      # knot insertion, removal, subdivision, degree changes, projection
    python3 generators.py /tmp/out   # square, translational and swept surfaces, NURBS evaluation
    python3 iga.py /tmp/out          # example/iga/test
    cd /tmp/out && for f in ConformanceBase ConformanceSplines ConformanceGenerators ConformanceIga; do
      coqc -Q /verif/rocq/theories Verif -Q . Verif $f.v; done

All of them compile: no assertion disagrees with the model.
