# Formal model of LNP-BP/client_side_validation in Rocq (Coq 8.16.1)

## Approach

The code is modelled function by function as total executable Gallina functions.

* **Bytes**: `Coq.Init.Byte.byte`; byte strings are lists; 32-byte arrays (`Bytes32`
  and its wrappers `MerkleHash`, `ProtocolId`, `Message`, `Commitment`, `StrictHash`) are
  a record of a list and a boolean length proof, so that every value is representable.
* **Hash**: all code is parametric in `HASH : list byte -> bytes32` (class `Hasher`).
  Theorems hold for *every* function, SHA-256 being one instance (`Sha256.v`, executable,
  checked on published vectors and on the vectors in `commit_verify/derive/tests/base.rs`).
  No collision-resistance assumption is made anywhere: binding theorems conclude "equal, or
  here are two distinct strings *among those hashed by these computations* with equal hash".
* **Panics and build profiles**: a function that may panic returns `outcome A` (`Ret` /
  `Panic`). `mode` (`Debug`/`Release`) is a parameter: `debug_assert!` and overflow checks
  exist in `Debug`, arithmetic wraps in `Release`.
* **`&mut self`** becomes a returned new value; `Result` stays data (`result A E`).
* **Machine integers**: `u5` depths are `nat`, others `N`, with wrap/overflow written
  explicitly where it can occur.
* **Iterators and loops**: structural recursion over lists; fuelled loops have an explicit
  out-of-fuel `Panic` which theorems exclude.

## Files (rocq/theories)

Model (definitions only; each cites the lines of `/repo` it transcribes and states what it simplifies):

| file | contents |
|---|---|
| `Base.v` | bytes, `bytes32`, little-endian, `outcome`, `result`, build profiles, u5/u32 arithmetic |
| `OrdMap.v` | `BTreeMap`/`BTreeSet` as strictly sorted lists |
| `Sha256.v` | executable SHA-256 and test vectors |
| `Ripemd.v` | executable RIPEMD-160 and test vectors; its `DigestExt` instance |
| `Strict.v` | strict-encoding codecs (combinators) |
| `Digest.v` | `digest.rs` |
| `Engine.v` | `id.rs`: commit engine, layouts; derive strategies; `ReservedBytes` |
| `EngineIo.v` | `id.rs` with encoders that may fail; serde of `ReservedBytes`; `derive/src/params.rs`, `derive.rs` |
| `Merkle.v` | `merkle.rs`: nodes, merklize, leaves of collections, buoy |
| `MpcAtoms.v`, `MpcTree.v`, `MpcBlock.v` | `mpc/*.rs` |
| `Dumb.v` | placeholder (`StrictDumb`, `Default`) values |
| `Schemes.v` | `commit.rs`, `embed.rs`, `convolve.rs` |
| `Seals.v` | `single_use_seals` |
| `Api.v` | `src/api.rs` |
| `Vesper.v` | `vesper.rs` |
| `Stl.v` | published type library (`stl/`) |
| `Orders.v` | derived `Ord` of ids, proofs, sources, errors, reserved bytes |
| `Loops.v` | second, statement by statement transcription of the loops in `block.rs`, `tree.rs`, `merkle.rs` |
| `Text.v` | `Display`/`FromStr` of ids; texts of errors and verdicts |
| `Serde.v` | derived serde implementations |
| `Suites.v`, `MpcTests.v` | test suites; randomised tests of `mpc` |
| `Steps.v`, `Work.v`, `Costs.v` | the functions of `MpcTree.v`, `MpcBlock.v` and `Merkle.v` with counters of the work done |
| `DepthData.v` | data computed outside and checked by Coq: factors of the widths tried, crafted protocol ids (C103) |

Specifications (written without the model's functions; they use only its data types):

| file | contents |
|---|---|
| `SpecHash.v`, `SpecStrings.v` | the exact strings that are hashed; `collision_in` |
| `SpecSha.v` | SHA-256 as a relation; collisions of its compression function |
| `SpecRipemd.v` | the same for RIPEMD-160 |
| `SpecTree.v`, `SpecFull.v` | partially revealed binary trees, frontier, root, restriction, join |
| `SpecCommit.v` | positions, admissible (depth, cofactor) attempts |
| `SpecMerkle.v` | balanced Merkle trees |
| `SpecBlock.v`, `SpecBuoy.v` | heights, placement, frontier depths |
| `SpecDerived.v` | blocks reachable from a tree by the public operations |
| `SpecValid.v` | values representable in the Rust types |
| `SpecCodec.v`, `SpecLayout.v` | round-trip/canonicity laws; byte layouts written out by hand |
| `SpecDerive.v` | arguments of the derive attribute |
| `SpecSession.v` | everything one can hold for a commitment after talking to untrusted parties |
| `SpecLocal.v` | contents of a proof; level where the ways to two positions part |
| `SpecStl.v`, `SpecQuery.v`, `SpecCount.v`, `SpecText.v`, `SpecOrders.v`, `SpecFind.v` | described strings; strings a computation reads; sequences of ids; hexadecimal; orders; search for collisions |
| `SpecCompress.v`, `SpecExtend.v` | SHA-256 and RIPEMD-160 from their publications; extension of hashed strings |
| `SpecSuites.v`, `SpecTests.v`, `SpecSerde.v`, `SpecForm.v` | what suites and tests check; documents; texts by templates |
| `SpecDepth.v`, `SpecShare.v`, `SpecSettled.v`, `SpecResting.v`, `SpecDraw.v`, `SpecFuse.v`, `SpecFeed.v` | depth which chosen protocols force; hashes common to two proofs; cross-sections which release builds commit to; what concealing, proof extraction and merging make of any cross-section |
| `SpecEnd.v`, `SpecTransfer.v`, `SpecScript.v`, `SpecNest.v` | clients and histories; histories as bytes; scripted sessions; nested values |
| `SpecGame.v`, `SpecTarget.v`, `SpecIdGame.v`, `SpecLate.v` | adversaries with hash queries, rare events; forgeries, replaced values |
| `SpecHideGame.v`, `SpecViewGame.v`, `SpecBlockGame.v`, `SpecTalk.v`, `SpecMany.v`, `SpecSeek.v` | adversaries who see commitments, proofs, blocks, any of them of any number of commitments; who look for one message |
| `SpecSalt.v`, `SpecOpen.v`, `SpecChoice.v`, `SpecPick.v`, `SpecOffer.v`, `SpecPlay.v` | values with secrets; values and message sets chosen by the adversary |
| `SpecEngine.v`, `SpecMisc.v` | fields and the bytes/steps they contribute; verdicts of schemes, seals, statuses; layout text |

Proofs: `*Facts.v`, `*Proofs.v`, `BlockInv.v`; `Theorems*.v` derive the statements; `Cases*.v` hold concrete
cases meeting their hypotheses; `Prop*.v` restate every theorem (`exact`), print its assumptions
and restate its case.

## Plan per property

* C01, C02, C03, C12: `MpcBlock.v` (with, conceal_except, into_merkle_proof, convolve) against an
  abstract partially revealed binary tree (`SpecTree.v`): the cross-section is its frontier.
  Convolution = root of the path; uniqueness by descending both paths in parallel.
* C04, C05, C06, C29, C30: `MpcTree.v` (search as nested recursion over depth and cofactor),
  spec = set of allowed attempts; induction over the search.
* C07: merklize of 2^k leaves and pairwise aggregation both equal the perfect-tree hash.
* C08-C11, C20, C32: refinement of conceal_except to `keep`+`contract` on the abstract tree;
  induction over tree shape for one pass, over number of passes for the loop.
* C13-C16, C50: refinement of merge_reveal to the join of two abstract trees; buoy lemma (C28).
* C17-C19: inversion of the aggregation loop: if it ends in one depth-0 node, the input was a frontier.
  Release-mode forgery and misplaced-leaf witnesses for the refutations.
* C21: characterisation of matches plus two concrete witnesses.
* C22-C24, C26: merklize as recursion with explicit u5 depth; balanced tree spec; binding by
  parallel induction using injectivity of node encoding.
* C25: injectivity / disjointness of the encodings.
* C27: C24 + injectivity of the MerkleConcealed encoding.
* C31: iteration of C02 over revealed ids.
* C33: codec combinators with two laws (round trip, canonicity), composed.
* C34-C37: engine as byte accumulator + layout + finished flag; induction over op lists.
* C38: prefix-freeness of length prefixing; explicit counterexample for too long data.
* C39: decoding as codec; C40-C42: schemes as records of functions, theorems over all records.
* C43-C46: status as four lists; validation as a fold threading the resolver state.
* C47-C48: seal protocol as a record of functions; C48's MPC instance uses C01.
* C49: layout to expression tree.
* C51: the inversion of C17 extended to ignored trailing nodes; a frontier is no proper prefix of another.
* C52: the path map filled from a restricted tree with one leaf; pigeonhole on depths when there are several.
* C53, C54: the full tree of an arbitrary slot map; parallel descent.
* C55: if all 501 widths 2^31 - c collide for some pair, the product of all pairwise differences of
  ten ids is divisible by more than it can be (`AvailProofs.v`); crafted ids are products of widths.
* C56: each pass lowers the height of the highest leafless subtree; combs attain the bound.
* C57: monotonicity of every function from `Debug` to `Release`.
* C58: join with a restriction; join of restrictions.
* C59: SHA-256 against a relational specification (`SpecSha.v`: padded message, blocks, chain of calls);
  Merkle-Damgard argument from the last call backwards, with the length in the padding.
* C60, C61: two trees of one commitment are compatible (parallel descent); compatible maximal trees with the
  same leaves are equal.
* C62: a full tree has no entropy leaf; a free slot holds one.
* C63: C47 with C02 and C60.
* C64: lengths of the codec combinators; counts of C11.
* C65: compatibility of trees with one commitment (C60) at the positions of leaves; pigeonhole on positions.
* C66: C51 plus exact heights; for release an explicit suffix whose heights sum to 2^32, which no pass
  aggregates (`PoisonProofs.v`).
* C67: `inner_commit_to` with the result of the encoder as a parameter; C68: C34 and injectivity of the
  tagged preimage; C69: argument lists as association lists.
* C70: C51 with exact heights, then C08, C10, C13, C52; C71: C35 applied to hashed and merklized fields.
* C72: the path map of the restricted full tree, level by level; C73: C60, C61 with the laws of C33; C74: division with
  remainder; C75: the merge loop on frontiers reaching one level below the depth (`MergeLooseProofs.v`); C76: C33, C47, C60;
  C77: sorted lists with the same elements are equal, then C24.
* C78: induction over sessions (`SpecSession.v`), with the comparison of trees of C60 at every accepted input; C79: the
  engine's layout is a function of the sequence of steps (C34).
* C80: as C59, for RIPEMD-160 (`Ripemd.v`, `SpecRipemd.v`), then C38.
* C81: the hash is reprogrammed at the tops of the hidden subtrees of the second tree, with the hashes of the first
  tree's subtrees there (`HideProofs.v`); without a collision these strings occur nowhere else.
* C82: C45 for the claims of an accepted history, then C47, C60, C34, C35; honest histories by C63 (`SpecEnd.v`).
* C83: the files are transcribed as data (`Stl.v`), the strict encoding rules are an inductive relation over type
  expressions (`SpecStl.v`), and every codec combinator is matched with its type constructor (`StlProofs.v`);
  C84: C49 and the Vesper notation of predicate, subject, attributes, indented content.
* C85: every result equals a specification value (C03, C22, C34) whose computation reads the hash at the listed strings
  only (`SpecQuery.v`); a string is needed because a fresh value there spreads to the root: every later string then has
  a field which occurs in no listed string.
* C86: all sequences are listed as products (`CountProofs.v`); every position has exactly 2^(256-D) ids, so each id already
  placed removes that many from the choices for the next one; then C05.
* C87: digits of both cases are checked one by one (16 values, 256 characters), then induction over pairs of digits; error
  texts are split at fixed words, ids (64 digits) and numbers (digits followed by something else).
* C88: `Loops.v` transcribes the loops a second time, imperatively; generalizing over the part of the vector already
  passed (`pre ++ xs`, index `length pre`) each step equals a step of the list functions; lengths bound the fuel.
* C89: order laws composed from those of numbers through pairs, options and lists; sorted lists with equal
  members are equal (`SpecOrders.v`).
* C90: the lists of C01, C24 and C27 with the counts of C85 and bounds on the length of every string; the search is
  in `SpecFind.v`.
* C91: templates are filled by a separate function over the text of the doc comments; nesting of parentheses is an inductive
  predicate, refuted for client errors by counting.
* C92: adversaries are trees of questions (`SpecGame.v`); tables agreeing with the answers so far are counted by the next
  answer (birthday bound, `GameProofs.v`); the checks of C60, C27 and C24 are written as questions too, so that winning
  leaves a collision among the strings asked.
* C93: pairs of entropy and table are counted (`SpecHideGame.v`). For a fixed entropy, exchanging the answer to the last
  string hashed with a fresh value maps the pairs (table, value) onto themselves, because no other string of the tree has
  its length (99 bytes); the adversary notices only if it asks that string, and for different entropies these strings differ
  unless there is a collision, which C92 bounds. Conversely the adversary which recomputes the commitment for all entropies
  (or for one, if the tree is full) is exhibited. Adversaries who also see a Merkle proof are treated in C94.
* C94: the path of a proof consists of the hashes of the subtrees beside the way (C72). In a table without collisions among the
  strings of the trees for all entropies, the top strings of the blinded subtrees are different from each other and from all
  strings within the others, so exchanging the answers to all of them with fresh values is injective on the pairs (such a
  table, values); the two sums differ by the tables left out (C92) and by the adversaries which ask one of the strings, at most
  q entropies for each table (`GameViewProofs.v`).
* C95: the same with a list of nodes, none within another, instead of the subtrees beside one way: the block left by
  `conceal_except` (which forgets the entropy) is a function of the shown messages and the hashes of the largest subtrees
  without them. `C95_seen` is the converse: the adversary takes the hash of a subtree without empty slots out of the cross
  section and compares. One block is seen here; several are the subject of C101.
* C96: `Suites.v` transcribes the suites of the `test_helpers` modules (folds with assertions; hash sets as lists), for every
  implementation of the traits. Each suite is shown to be equivalent to a condition on the scheme. The messages of
  `gen_messages` are shown to be different and related as their comments say, so that the two tests of embed.rs pass
  (`C96_own`). The limit of 65535 bytes for containers of the test scheme is not modelled: beyond it
  `embed_commit` panics instead.
* C97: an inductive predicate lists the forms of the strings hashed for multi-protocol commitments, and the strings listed for
  trees and proofs are shown to have them. `resumes` describes a computation which starts in the state given by a digest; that
  it gives the digest of the extended string follows from the account of SHA-256 of C59 (runs over blocks). Lengths and the bytes after
  the tag exclude extensions. What a composite of several fields may be extended to is covered only as the value of a
  lawful encoding.
* C98: `SpecCompress.v` writes the two hash functions again, from the publications: operations by their bits, the constants as
  digits of roots of the first primes, the orders of words by the permutations rho and pi, the rotations by the table indexed with words.
  That these are what the crates `sha2` and `ripemd` compute is trusted. The bit length is taken modulo 2^64, as the publications
  restrict messages to fewer bits.
- **C99** (PropTests.v; model MpcTests.v, spec SpecTests.v). The random numbers drawn by the tests of mpc/tree.rs and
  mpc/block.rs are arguments of the modelled tests; a test which passes is `Ret tt`, a failed assertion or `unwrap`
  is a `Panic`. The positive statements follow from C02, C04, C05, C07, C12, C15, C27, C55 and C64; `tree_structure` is
  characterised exactly through the order of attempts (C05). The refutations give the numbers: nine with which the
  first width that works is 9; 247 and more which are apart in none of the widths 2^d - c with d <= 31, c <= 500. The
  cases also run the vectors of commit_verify/derive/tests/base.rs through the modelled derive macros with SHA-256.
  Not modelled: the elapsed times printed by `tree_huge`; how likely a draw is (in a simulation of 400000 runs
  `tree_structure` failed in 0.066 % of them).
* C100: `Serde.v` models what serde_derive generates for a human-readable self-describing format (documents as trees of
  values). `SpecSerde.v` says which documents mean which value; reading is shown equivalent to it for every type with derived
  implementations. Whether amplify's `u5` and `Confined` check their bounds when they are read is a parameter (`ck`)
  of the theorems, because that crate is not at hand. Formats which are not human-readable are not modelled.
* C101: an interactive adversary is a tree of questions (`SpecTalk.v`). The block showing all protocols the adversary may name
  determines the revealed part of the tree; every proof, smaller block and the commitment is computed from that part with at most
  2*2^D+1 hashes (`p_open`), so the conversation becomes a computation which sees one block, and C95 applies. All openings are of
  one commitment; several are the subject of C102.
* C102: the commitments are exchanged one after another; with the entropies of all others fixed, the adversary answers the
  questions about them alone (`about`: at most 3*2^D+2 hashes for each), so that C101 applies, and the inequalities are summed
  over the entropies.
* C103: if every attempt fails, every width divides the product of the differences of the identifiers, which is below
  2^(256 n(n-1)/2); certified prime factors of the widths (DepthData.v, checked in DepthProofs.v by trial division) bound
  their common multiples from below. The 280 identifiers are zero and numbers below 2^256 which together are divisible by every
  width. `Steps.v` is the search of `try_commit` with counters of attempts and positions. The limits for three and more
  protocols are not claimed to be reached; how many protocols between 11 and 279 can be rejected is open.
* C104: `Work.v` repeats the functions of `MpcBlock.v` with counters; dropping them gives back the original functions
  (`C104_same`). `Vec::remove` is charged the number of elements behind the removed one; other costs of the standard library
  (the set of ids looked for, `contains`, cloning the block) are not counted. The exact number of moves is given for trees and
  for proofs of any position, otherwise an upper bound.
* C105: the adversary of C92 with the commitments fixed beforehand. `c105_extract` repeats the collision extraction of C01–C03
  with the two strings on different sides: one hashed for the original tree, the other for the forged proof, block or tree.
  The count (`TargetProofs.v`) runs the honest commitments first, then the adversary and the check of its answer; the fraction
  has a quadratic part in the number K of honestly hashed strings only. The sources may not depend on the hash function.
  For blocks the statement is about debug builds, where `conceal_except` checks that nodes are adjacent (C70, C75).
* C106: lower bounds for C92 and C105 by explicit programs (`p_pair`, `p_other`): they ask for the leaves of many messages of one
  protocol and use that equal leaf hashes give equal commitments (C90). The functions for which they fail are counted in
  `AttackProofs.v`. For hiding, the corresponding lower bounds are `C93_search` and `C95_seen`. In C106 the number of messages
  attacked at once appears without the factor 2*2^D+2 which C105 allows for the inner nodes of the trees.
* C107: quantitative versions of C35, C77 and C82 by the method of C92: `p_id`, `p_coll` and `p_check` recompute what the
  adversary output, asking for every string listed by those theorems (`TheoremsIdGame.v`). In the event `spent_twice` the medium,
  the seal protocol, both clients and their data are existentially quantified: they may depend on the hash function in any way.
  Fields of a value are a function of the value only; values with fields that are ids of other values are not covered here (C71).
* C108: the second-preimage version of C107, built on `c105_second`. The extraction for engines (`c108_extract`) repeats C24 and
  C35 with pairs of one string of the original and one of the replacement (`merklize_second`, `fields_second`). The published
  source may be any function of the operation's id (`source`), so the other messages may depend on it.
* C109: `c_consignment` and `receive` (`SpecTransfer.v`) stand for an application which sends claims with the crate's encodings and
  validates what it reads; the repository contains no such function. Encodings of seals, operations and published witnesses are any
  lawful codecs. The deterministic part composes C02, C33, C76 and C82, the quantitative part repeats C108 claim by claim. That the bytes concern
  the same seals is a hypothesis: a client has to know for which seals it asks.
* C110: `composite` (`SpecNest.v`) stands for any type whose `CommitEncode` feeds fields, values by `commit_to_hash` and collections by
  `commit_to_merkle`; `C110_model` connects it with `commit_id`. Proved by induction over the nesting; the game versions recompute the
  id value by value. `C110_wrapped` and `C110_node_tag` show that the provisos in `resembles` cannot be dropped.
* C111: `Costs.v` repeats `to_merkle_proof`, `into_known_proofs`, `into_proofs`, `merge_reveal` and `merklize` with counters of hashes,
  rounds and pushes, over `Work.v`; `C111_same` drops them. The number of hashes of `merklize` is found by induction over the levels;
  for merging and proofs it follows from the counts of C11 and C104.
* C112: `SpecScript.v` makes the sessions of `SpecSession.v` follow a script, a tree of operations which an adversary outputs. Every thing
  accepted is either a view of the committed tree or gives a second preimage of a string of the tree (`C112_extract`), so the counting
  of C105 applies with one more query for every byte received; for commitments of unknown origin the held blocks are compatible or
  collide, and the counting of C92 applies. The client checks received blocks to be well-formed (C70 shows how); the library does not.
  The refutation is computed with SHA-256.
* C113: `SpecSalt.v` counts pairs of secrets and hash functions for which an adversary answers yes to ids, as `SpecHideGame.v` does for
  commitments. The proof replaces the ids one by one by random strings: the string hashed for an id contains the secret, so an adversary asks
  it for at most q of the S secrets. The strings hashed for the earlier values count as questions of the adversary against the later ones,
  which gives the summand 2(r-1). Values with merklized fields are left out, since their bytes depend on the hash function.
* C114: the adversary of C113 as a tree of questions for hashes and secrets (`SpecOpen.v`). The lists are changed into each other place by
  place; for one place the secrets of all others are fixed, which makes the adversary a program that sees one id (`p_rest`).
* C115: the adversary as a tree of questions for hashes and for ids of pairs (`SpecChoice.v`); unlike in C113 and C114 the values may depend
  on hashes and on earlier ids. A pair carries the tag and the bytes its members commit to, which `fair` checks. Proved pair by pair: the
  computation before the pair determines the string hashed, so answers are exchanged only where that computation did not ask for this
  string (`late_one`). Values whose secrets the adversary knows need no question: it can compute their ids with two hashes.
* C116: the game of C93 with messages which may depend on the hash function (real messages are hashes) and on earlier commitments, as a tree of
  questions (`SpecPick.v`). Same exchange of answers as for C115, at the last string hashed for a tree; tables for which two entropies give
  the same last string are counted by the birthday bound of C92, applied to the computation before the pair followed by the commitments for
  all 2^64 entropies. Openings are not part of this game (see C117).
* C117: the game of C116 in which the adversary is given partially revealed blocks (`SpecOffer.v`); proofs, smaller blocks and the commitment
  are computed from the block without the entropy (C101), so being given the block is being given all of them. The exchange of answers is
  that of C95 done after the first part of the computation (`OfferProofs.v`): the strings of the concealed nodes depend on the sources chosen
  by then, so their number is only bounded, and the answers not needed are ignored by the view. The protocols shown for a pair are chosen
  with the pair, not later (see C118).
* C118: the games of C102 and C117 together (`SpecPlay.v`): sources are chosen during the game and may be opened at any later time, in several
  ways. The hashes exchanged are those of the finest nodes which do not tell the two trees apart (`PlayProofs.v`); they do not depend on the
  openings, and every allowed opening is computed from them, so they can be fixed when the pair is handed over. `c118_together` says that
  the condition on single openings is the condition on all of them together.
* C119: complements C93-C102, which need an empty slot in each concealed subtree, and finding 21 (`SpecSeek.v`). `retold` replaces the
  message of one protocol; all openings are computed from the hash of its leaf alone (`p_veil`), and the strings hashed for this are no
  leaves of this protocol, so only the adversary's own hashes count (`sparing`). Then the hash of the leaf is exchanged for a random
  value (`one_entropy` of C93) for each candidate. `c119_sharp` is the matching attack, using the birthday bound of C92.
* C120: `SpecShare.v` says what slots hold and when the subtrees beside two ways are the same. The hashes of a proof are those of the
  subtrees beside its way (C72, C94); equal hashes of two subtrees give equal strings or a collision, by induction on the height
  (`part_inj`), also for different depths and sizes of the trees.
* C121: `SpecSettled.v` says which sequences of subtrees stay apart. Forwards, a pass contracts one level of every settled subtree
  (`pass_forest`) until only roots remain; backwards, a pass that returned can be undone subtree by subtree (`unpass_forest`), the last
  pass, which aggregated nothing, giving the roots. Leaf numbers are sums without bound; their remainders modulo widths are those of
  the wrapping u32 of the code (`rem_wrap`).
* C122: `SpecResting.v` extends the division of C121 to kept leaves. Passes forwards and backwards as there (`pass_rest`, `unpass_rest`).
  A pass that returns without overflow checks returns with them exactly if its result has no node below the leaves and is narrower than
  2^32 leaves (`debug_pass`, `debug_kept`); the assertion after an aggregating pass fixes the width.
* C123: C122 for one kept id, and the map from depths to hashes filled by the code: with overwriting it holds the last node of every
  depth (`path_lasts`); with the assertion it exists exactly if the depths differ (`path_debug`).
* C124: the loop of `merge_reveal` on two loose trees with any remainders (`merge_loop_loose`) leaves the remainders, whose first
  nodes it drops when it ends; the assertions after the loop and C121 decide the rest. Whatever
  the remainders, the loop adds no width (`merge_loop_heights`), so below the bound the sum cannot wrap and only nodes of no width are
  left. The exact outcome is not given for two blocks which both carry nodes after their trees (`C124_narrow`, `C124_honest`,
  C16 and C66 do apply; C75 covers debug builds).
* C125: induction over what is held (`reception`). A block which passes the check and merges gives what the block cut to its tree
  would give (C124 without debug assertions; with them nothing follows the tree), the commitment forces the tree to be no deeper
  than the leaves (C66), and the session with cut blocks is one of C78. The game is that of C112 with these checks (`receives`).

Nothing in the list is judged inexpressible.

## Trusted base

* Coq 8.16.1's kernel (including its VM for `vm_compute` in concrete cases; `coqchk` rechecks without it).
* `Print Assumptions` of every theorem in `Prop*.v` answers "Closed under the global context": no
  axioms at all, neither own nor of the standard library. (`coqchk`/`vcheck` list some `Coq.ssr.ssrunder`
  constants: they come with the loaded standard library and no theorem depends on them.)
* The transcription of the Rust text into Gallina, done by reading. Each definition cites file and lines.
* Behaviour of crates outside `/repo`, modelled from their documentation:
  `amplify` (`u5`, `u24`, `Confined` bounds, `Bytes32`), `strict_encoding` (little-endian integers, length
  prefixes by the maximum size, sum tags, no padding), `sha2`, `ripemd` (streaming = hash of concatenation), texts by amplify's `Display` derive (doc comments, lines joined by a space) and hexadecimal ids, `rand`
  (an arbitrary u64 per call), `vesper` (expression printing as a tree of subject/predicate/attributes/children).
* `usize` is 64 bits wide.

## What is modelled and what is not

Modelled: `commit_verify/src/{commit,convolve,embed,conceal,digest,id,merkle,lib(ReservedBytes, gen_messages)}.rs`,
`commit_verify/src/mpc/{atoms,tree,block}.rs` (all functions except those below), `commit_verify/src/vesper.rs`,
`commit_verify/derive/src` (attributes as association lists of names and path texts), `single_use_seals/src/lib.rs`, `src/api.rs`,
the derived serde implementations for human-readable formats, the test suites and tests (`Suites.v`, `MpcTests.v`: `commit.rs`, `embed.rs`,
`mpc/tree.rs`, `mpc/test.rs`).

Not modelled: derived `Debug` texts, texts of foreign errors, serde with binary formats, `stl.rs` type library compilation and its
ids, the `commit-stl` binary (their products `stl/*.sty`, `stl/*.vesper` are transcribed in `Stl.v`), memory consumption and running time except for the counts of C56, C85, C103, C104 and C111 (depth-31 trees need 2^31 leaves
in memory), tokenization of derive-macro attributes by `amplify_syn`.

## Findings in the code

Each of these is a theorem (name in brackets).

1. In release builds a block's commitment does not vouch for the leaves it reveals: for every
   well-formed block and every (protocol, message) there is a decodable block with the same `commit_id` that reveals
   it [`C18_release_refuted`]. The check in `MerkleBlock::conceal` is a `debug_assert`.
2. `MerkleProof::matches` compares the first path hash, not the root: proofs of one tree may not match, proofs
   of different commitments may [`C21_*_refuted`].
3. A decoded `MerkleProof` with 32 path hashes makes `convolve` panic [`C03_convolve_total_refuted`];
   decoded blocks make `commit_id` panic in both profiles [`C17_total_refuted`, `C17_total_release_refuted`].
4. `factored_width` underflows on decoded values [`C30_decoded_refuted`].
5. Blocks do not check positions of leaves, so one protocol can have two messages under one commitment
   if the caller relies on blocks alone [`C19_unplaced_refuted`].
6. A failing `conceal_except` still erases the entropy and conceals leaves [`C10_atomic_refuted`].
7. In release a merge can succeed on blocks whose heights exceed the width [`C16_heights_release_refuted`].
8. `merge_reveal` returns its count modulo 2^16 [`C50_length_refuted`].
9. `TryCommitVerify::verify` of a tree fails without static entropy unless the RNG repeats [`C06_verify_rng`].
10. `input_with_len` writes truncated lengths for too long data [`C38_too_long_refuted`, `C38_too_long_24_refuted`].
11. About a thousand crafted protocol ids (280 suffice, see 26) make every tree construction with the default depth fail
    [`C55_crafted_refuted`]; ten or fewer always fit [`C55_few`].
12. `Validity`'s derived order is not severity [`C46_order_refuted`]; `EvProofMismatch` is never produced
    [`C41_never_proof_mismatch`]; own seals are not resolved [`C45_own_seals_ignored`];
    layouts drop library names [`C49_libs_refuted`]; a one-leaf root is not separated from a node
    [`C26_one_leaf_refuted`]; `TooManyMessages` is unreachable [`C05_first_fit`].
13. A tree whose messages fill all slots is not blinded by entropy: its commitment can be guessed from
    the messages alone, e.g. for one message at minimal depth 0 [`C62_full`, `C62_single`].
14. In release builds any block of depth at least 2 can be poisoned by merging: a crafted decodable block makes
    `merge_reveal` succeed, keep the commitment and add an arbitrary leaf [`C66_poison_refuted`].
15. In release builds a value whose strict encoding fails is committed to by the bytes written before the
    failure [`C67_silent_refuted`]; layouts are not part of the commitment [`C68_layout_refuted`].
16. The entropy stored in a block is not covered by its commitment: an intermediary can replace it unnoticed
    [`C73_entropy_refuted`].
17. An absent optional field and a plain field of the same type holding a zero byte have one layout and one
    digest [`C79_option_refuted`]; a published layout describes only the placeholder if the encoder branches on
    the value [`C79_varying_refuted`].
18. The published type of `ReservedBytes` describes strings which the decoder refuses [`C83_reserved_narrow`];
    the tags printed for `Leaf` in `stl/Merkle.vesper` (0, 1) are not those on the wire (16, 17)
    [`C83_vesper_leaf`].
19. `TooManyMessages` says that the protocol limit is 2^16 messages; no code enforces it: for every number below 2^24 some
    source commits [`C86_capacity`].
20. The `Debug` text of a client-side witness error has an unclosed parenthesis: the name passed to `debug_tuple` is
    `SealError::Client(err` [`C91_debug`].
21. A Merkle proof shows the unblinded hash of the neighbouring message: whoever holds the proof can test guesses of that
    message with two hash computations, whatever the entropy [`C94_seen`]; entropy hides only subtrees with an empty slot
    [`C94_hidden`], and against an exhaustive search only with 64 bits [`C93_search`]; beyond such guesses
    nothing is learnt, with or without entropy [`C119_hidden`].
22. The suite for embed-commit schemes does not test that commitments are binding: the scheme of the test module passes it for
    all containers and messages, yet one of its commitments verifies for two messages [`C96_embed_refuted`]; its outcome
    depends on the order of the messages [`C96_order_refuted`].
23. `input_with_len` does not protect lists of strings against length extension: the first padding byte and the zeros after it are
    the length prefix of 128 more bytes, so that whoever knows the digest and the length of framed data computes the digest
    of the data with one more string [`C97_framed_refuted`]. The tagged hashes of the crate have no secret part, so
    that this matters only when the framed data is secret.
24. `tree_structure` (mpc/tree.rs:340-352) asserts `factored_width() > 9` for nine messages, but the tree may use
    exactly nine slots (depth 4, cofactor 7): the test fails by chance, in about one run of 1500 (C99_structure,
    C99_structure_refuted). `make_det_messages` (228-239) makes the id of the number of messages instead of the loop
    variable, so the test `determin_tree` only covers trees with one leaf (C99_det). The comment of `tree_huge`
    gives a serialized length of 1081361 bytes, it is 1081362 (C99_huge). `tree_id_entropy` and `scalability` can
    fail for particular draws too, with negligible probability.
25. Names in documents are not uniform: `InvalidProof`, `MerkleConcealed`, `Method` and `ConvolveVerifyError` use camel case
    (`protocolId`, `merkleRoot`), `MerkleBlock`, `TreeNode`, `MerkleProof` and `Status` do not (`cross_section`, `protocol_id`)
    [`C100_written`]. If amplify's types do not check their bounds when read by serde, documents yield values which strict decoding
    refuses [`C100_unchecked_refuted`].
26. Whoever contributes 280 chosen protocol identifiers makes `try_commit` fail for everybody else's messages in the same
    commitment, whatever the minimal depth (C103; C55 needed about a thousand). Two chosen identifiers force a tree of 256 slots
    instead of 8 with the default depth.
27. Computing the commitment of a tree shifts (4^d+2)/3 - 2^d nodes, quadratic in its 2^d slots, because aggregated nodes are
    taken out of the vector one at a time (block.rs:378); 2.3*10^13 nodes for the depth 23 of the test `tree_huge`
    (C104). `MerkleTree::root` gets the same hash from an iterator.
28. `into_known_proofs` conceals a fresh copy of the whole block for every proof, so extracting the proofs of a tree of depth d with m
    messages costs about m·2^d hashes (C111: (2^d - m) + m((m - 1) + (2^d - 1 - d))), where one pass over the tree would compute all
    siblings with about 2^(d+1).
29. The entropy of a tree enters its empty slots only, and the hash of an inhabited leaf depends on nothing but protocol and message. So
    whoever gets proofs of one protocol in successive commitments sees whether the message of the neighbouring protocol, or
    anything in a full subtree beside the way, has changed, although each commitment has fresh entropy [`C120_neighbour`, `C120_shared`].
30. `to_merkle_proof` does not check that the cross-section is complete: even debug builds extract proofs from
    blocks for which `commit_id` panics, and these proofs convolve to commitments [`C123_unchecked_refuted`].
31. Builds without debug assertions drop the first node after the tree when merging. A committer who hides a pair of nodes below a leaf
    can use this to have a block of five nodes add any message to a merged block [`C124_deep_refuted`]. With an honest
    committer, or without nodes below the leaves, the nodes must together be wider than 2^32 leaves [`C124_honest`, `C124_narrow`].
32. A receiver whose build has no debug assertions can make merging safe by two tests before the call: no node is deeper than the
    leaves, and the leaves below all nodes number less than 2^32 [`C125_truth`]. Without the first test a block of three nodes
    leaves an ill-formed block, also if the library made the commitment [`C125_deep_refuted`].

## Seeded wrong programs

`seeded/LOG.jsonl` has one line per attempt: a definition of the model was edited the way a programmer might
get it wrong, in a copy outside `/verif`, and everything was rebuilt. `theorems_failed` lists the
theorems whose proof no longer goes through, directly or because a lemma they rest on fails.
`theorems_tightened` lists theorems added or strengthened because of the attempt.
