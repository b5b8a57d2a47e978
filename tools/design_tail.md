## 5. How the theorems were tested

`tools/mutgen.py` makes small edits to model definitions (comparisons, indices, constants, dropped assertions, swapped
arguments), `tools/mutate.py` rebuilds a scratch copy with each and records which theorem fails. Results are in
`seeded/LOG.jsonl`. Survivors are either equivalent programs or led to new theorems (listed there as tightened).
