{"id": "C01", "title": "One message per protocol under an MPC commitment", "statement": "If two MerkleProofs (possibly different, possibly adversarial) convolve the same ProtocolId with messages m1 and m2 to the same Commitment, then m1 = m2, or else two distinct byte strings that were actually fed to SHA-256 in these two computations hash to the same value.", "quantifier": "all hash functions, all pairs of decodable proofs, all protocol ids, all messages, both build profiles", "why_tests_cant": "An attacker chooses proofs of any length, cofactor and path; unit tests only try honest proofs produced by the same tree.", "anchors": ["commit_verify/src/mpc/block.rs: MerkleProof::convolve, MerkleBlock::with, MerkleBlock::conceal", "commit_verify/src/mpc/tree.rs: protocol_id_pos"]}
{"id": "C02", "title": "Every committed message has a working proof", "statement": "For every MultiSource for which MerkleTree::try_commit succeeds and every (protocol, message) in it, the block built from the tree yields a MerkleProof via to_merkle_proof, and convolving that proof with exactly that protocol and message returns the tree's commit_id; nothing panics.", "quantifier": "all sources (any number of messages, any ids, any min_depth, any entropy), all entries, all hash functions, both build profiles", "why_tests_cant": "The tree position of a message depends on a 256-bit id modulo a searched width; tests sample random ids and few sizes.", "anchors": ["commit_verify/src/mpc/tree.rs: try_commit, root, into_proofs", "commit_verify/src/mpc/block.rs: From<&MerkleTree>, to_merkle_proof, convolve"]}
{"id": "C03", "title": "Convolving an untrusted proof is total", "statement": "MerkleProof::convolve returns Ok(commitment) exactly when the proof position equals the position prescribed for the protocol id, returns Err(InvalidProof) with the expected and actual positions otherwise, and never panics, for every proof whose path has at most 31 hashes. (The type admits 32 hashes: that case panics; shown as a refutation.)", "quantifier": "all decodable proofs, protocol ids, messages, both build profiles", "why_tests_cant": "Panic-freedom on attacker data must hold for every path length, position and cofactor, including boundary values.", "anchors": ["commit_verify/src/mpc/block.rs: MerkleProof::{depth,width_limit,convolve}, MerkleBlock::with"]}
{"id": "C04", "title": "try_commit puts every message at its protocol position", "statement": "When try_commit returns a tree, its depth is at least min_depth, method, messages and entropy are those of the source, each source message is stored at protocol_id_pos of its id, all these positions are pairwise different and below the tree width, and no other position is occupied.", "quantifier": "all sources and entropies", "why_tests_cant": "Collisions between positions depend on arithmetic relations among 256-bit ids.", "anchors": ["commit_verify/src/mpc/tree.rs: try_commit, protocol_id_pos"]}
{"id": "C05", "title": "try_commit finds the first fit and fails only if there is none", "statement": "try_commit returns the lexicographically first (depth, cofactor) among the allowed attempts for which all messages get distinct positions; it errs with Empty exactly for no messages and zero depth, with CantFitInMaxSlots exactly when no allowed attempt works, never with TooManyMessages for a representable source, and always terminates.", "quantifier": "all sources", "why_tests_cant": "The search space is 29 depths times 501 cofactors for arbitrary id sets; tests cannot exhibit absence of a better fit or termination in general.", "anchors": ["commit_verify/src/mpc/tree.rs: try_commit, COFACTOR_ATTEMPTS"]}
{"id": "C06", "title": "Re-verification of an MPC commitment", "statement": "For a source with static entropy, tree.verify(source) is Ok for the tree produced by try_commit(source), Err(InvalidMessage) if the source cannot be committed, and Err(InvalidCommitment) for any other tree. Without static entropy, verification of a correct tree fails whenever the RNG draws a different number (refutation of the unconditional claim).", "quantifier": "all sources, all trees, all RNG outcomes", "why_tests_cant": "RNG outcomes and the equality of whole structures are unbounded.", "anchors": ["commit_verify/src/mpc/tree.rs: try_commit", "commit_verify/src/commit.rs: TryCommitVerify::verify"]}
{"id": "C07", "title": "A tree, its block and its concealed form share one commitment", "statement": "MerkleTree::commit_id, commit_id of the block built from it, and commit_id of the MerkleConcealed value are equal; the concealed Merkle root equals MerkleTree::root().", "quantifier": "all trees produced by try_commit, all hash functions, both build profiles", "why_tests_cant": "The two sides use unrelated algorithms (recursive merklization vs iterative pairwise aggregation); equality must hold at every depth up to 31.", "anchors": ["commit_verify/src/mpc/tree.rs: root, conceal", "commit_verify/src/mpc/block.rs: conceal, conceal_except, MerkleConcealed", "commit_verify/src/merkle.rs: merklize"]}
{"id": "C08", "title": "Concealing keeps the commitment and hides exactly the rest", "statement": "conceal_except(ids) on a well-formed block that reveals all ids succeeds without panicking, leaves commit_id unchanged, leaves revealed exactly the leaves with a listed id (same messages, same order), erases the entropy, and keeps method, depth and cofactor.", "quantifier": "all well-formed blocks of every depth, all id lists, all hash functions, both build profiles", "why_tests_cant": "The aggregation loop walks arbitrary cross-sections; offsets and alignment must be right for every shape.", "anchors": ["commit_verify/src/mpc/block.rs: conceal_except, conceal_other"]}
{"id": "C09", "title": "Concealment is maximal and canonical", "statement": "After conceal_except succeeds no two sibling nodes are both concealed, so the result depends only on the committed tree and the set of ids kept: concealing to ids in any order, with duplicates, or in two steps through a larger set, gives the same block.", "quantifier": "all well-formed blocks, all id lists", "why_tests_cant": "Quantifies over all shapes and all orders of concealment.", "anchors": ["commit_verify/src/mpc/block.rs: conceal_except"]}
{"id": "C10", "title": "Asking to keep an unknown leaf reports it", "statement": "conceal_except / conceal_other / to_merkle_proof return Err(LeafNotKnown(p)) exactly when some requested id is not revealed, with p the smallest such id, and never panic on well-formed blocks; the commitment is unchanged even then. (The failed call still erases the entropy and conceals the other leaves: atomicity is refuted.)", "quantifier": "all well-formed blocks, all id lists", "why_tests_cant": "Needs every subset of revealed ids.", "anchors": ["commit_verify/src/mpc/block.rs: conceal_except, conceal_other, into_merkle_proof"]}
{"id": "C11", "title": "Number of concealed nodes", "statement": "The count returned by conceal_except is the number of leaves newly concealed plus the number of nodes by which the cross-section shrank.", "quantifier": "all well-formed blocks, all id lists", "why_tests_cant": "All shapes.", "anchors": ["commit_verify/src/mpc/block.rs: conceal_except"]}
{"id": "C12", "title": "Proof and block forms are interchangeable", "statement": "For a block derived from a try_commit tree revealing (p, m): MerkleBlock::with(to_merkle_proof(p), p, m) equals the block after conceal_other(p); the proof has one hash per level, the position of p, and the block's cofactor and method.", "quantifier": "all blocks reachable from try_commit trees by concealing and merging, all revealed protocols", "why_tests_cant": "Path direction handling must be right for each of 2^depth positions.", "anchors": ["commit_verify/src/mpc/block.rs: with, into_merkle_proof, to_merkle_proof"]}
{"id": "C13", "title": "Merging reveals the union", "statement": "merge_reveal of two well-formed blocks with equal commitments returns Ok, keeps commit_id, method, cofactor and depth, and reveals exactly the leaves revealed in either one, in position order; unless a hash collision among their node encodings is exhibited. It does not panic.", "quantifier": "all pairs of well-formed blocks, all hash functions, both build profiles", "why_tests_cant": "The two cursor walk with depth buoys must align for all pairs of cross-sections.", "anchors": ["commit_verify/src/mpc/block.rs: merge_reveal", "commit_verify/src/merkle.rs: MerkleBuoy"]}
{"id": "C14", "title": "Merging unrelated blocks is refused", "statement": "If the commitments differ, merge_reveal returns Err(UnrelatedBlocks) carrying both commitments, and the base block is unchanged; merge_reveal_path with a mis-positioned proof returns the InvalidProof error and leaves it unchanged.", "quantifier": "all pairs of well-formed blocks; all proofs", "why_tests_cant": "All pairs.", "anchors": ["commit_verify/src/mpc/block.rs: merge_reveal, merge_reveal_path"]}
{"id": "C15", "title": "Merge order does not matter", "statement": "For blocks of one tree, merging is idempotent, commutative and associative on the cross-section, and merging the single-proof blocks of any non-empty set of protocols in any order gives the block that conceal_except of that set gives.", "quantifier": "all trees, all sets of protocols, all orders", "why_tests_cant": "Number of orders is factorial.", "anchors": ["commit_verify/src/mpc/block.rs: merge_reveal, with"]}
{"id": "C16", "title": "A successful merge never changes the commitment", "statement": "Whatever the two blocks are (even malformed ones obtained by decoding), if merge_reveal returns Ok then commit_id of the result equals the commit_id of both arguments, method, depth, cofactor and entropy are those of the base, the result is representable, and the heights of its nodes sum up to the tree width: exactly in a build with overflow checks, modulo 2^32 in release (a release merge with a larger sum exists: refutation).", "quantifier": "all representable blocks, both profiles", "why_tests_cant": "Adversarial inputs.", "anchors": ["commit_verify/src/mpc/block.rs: merge_reveal"]}
{"id": "C17", "title": "Committing to a decoded block: defined exactly on complete cross-sections", "statement": "In a build with debug assertions, commit_id of a representable block returns a value if and only if its cross-section is the left-to-right frontier of a binary tree whose revealed leaves sit at the tree depth (concealed nodes at most one level below); it panics otherwise. Hence commit_id is not total on decodable blocks (refutation).", "quantifier": "all representable blocks of any depth", "why_tests_cant": "Exact panic domain over all inputs.", "anchors": ["commit_verify/src/mpc/block.rs: conceal, conceal_except"]}
{"id": "C18", "title": "A block's commitment vouches for its revealed leaves", "statement": "Intended: if a decoded block has the same commit_id as a genuine one then all messages it reveals are committed. Proved for builds with debug assertions (with collision extraction); refuted for release builds, where leaves appended after a depth-0 node are not covered by commit_id: for every well-formed block and every (p, m) a block with the same commitment revealing (p, m) exists.", "quantifier": "all pairs of representable blocks, all hash functions, both profiles", "why_tests_cant": "Attack inputs are outside of what the constructors create.", "anchors": ["commit_verify/src/mpc/block.rs: conceal (debug_assert_eq, first()), to_known_message_map"]}
{"id": "C19", "title": "A block binds one message per protocol", "statement": "Blocks whose revealed leaves sit at their prescribed positions and which share a commitment agree on the message of every protocol both reveal (or a collision is exhibited). Position is not checked by the block API: without that condition two blocks with equal commitments can reveal different messages for one protocol (refutation).", "quantifier": "all pairs of well-formed blocks", "why_tests_cant": "Adversarial inputs.", "anchors": ["commit_verify/src/mpc/block.rs: to_known_message_map, known_protocol_ids", "commit_verify/src/mpc/tree.rs: protocol_id_pos"]}
{"id": "C20", "title": "Proof::matches for trees and blocks means equal commitments", "statement": "matches on MerkleTree and MerkleBlock holds iff commit_ids are equal; it is therefore an equivalence, and conceal_except, merge_reveal and From<MerkleTree> results match their source.", "quantifier": "all well-formed values", "why_tests_cant": "All values.", "anchors": ["commit_verify/src/mpc/block.rs: Proof for MerkleBlock", "commit_verify/src/mpc/tree.rs: Proof for MerkleTree"]}
{"id": "C21", "title": "Proof::matches for MerkleProof means equal commitments", "statement": "Documented: two matching proofs have the same root and produce the same commitments, and two proofs of the same tree match. Both directions are refuted for the code: matches compares the first path hash (sibling below the root), so same-tree proofs from different halves do not match, and proofs with different commitments can match. Proved: what it does decide.", "quantifier": "all proofs", "why_tests_cant": "Needs proofs with crafted tails.", "anchors": ["commit_verify/src/mpc/block.rs: Proof for MerkleProof, merkle_root", "commit_verify/src/mpc/mod.rs: Proof::matches"]}
{"id": "C22", "title": "Merklization is total", "statement": "MerkleHash::merklize returns a value without panic or depth overflow for every collection of at most 2^32-1 leaves, including the empty one; the recursion depth never exceeds 31.", "quantifier": "all leaf lists up to the type limit", "why_tests_cant": "Sizes near 2^32 cannot be tested.", "anchors": ["commit_verify/src/merkle.rs: merklize, _merklize"]}
{"id": "C23", "title": "Merklization computes the balanced tagged tree", "statement": "The result of merklize equals the hash of the tree that splits n>2 leaves into the first ceil(n/2) and the rest, tags each node with its branching kind, depth and the total width, and uses the leaf itself for n=1; for n=2^k it is the perfect binary tree of height k.", "quantifier": "all leaf lists", "why_tests_cant": "All lengths.", "anchors": ["commit_verify/src/merkle.rs: merklize, _merklize, MerkleNode"]}
{"id": "C24", "title": "Merklization is binding", "statement": "Two leaf-id lists with equal merklize results are equal, or one of them has exactly one element and the other does not, or two distinct node encodings hashed in the computation collide. For MPC leaves the middle case disappears: equal roots mean equal leaf lists up to collisions.", "quantifier": "all pairs of leaf lists, all hash functions", "why_tests_cant": "Second-preimage style properties quantify over adversarial lists.", "anchors": ["commit_verify/src/merkle.rs: merklize", "commit_verify/src/mpc/atoms.rs: Leaf"]}
{"id": "C25", "title": "Leaves, inner nodes and tagged types are domain-separated", "statement": "The bytes hashed for an MPC leaf never equal the bytes hashed for a Merkle node; inhabited and entropy leaves never coincide; strings hashed under different commitment tags differ unless the tag hashes collide; encodings of leaves, nodes and concealed roots are injective.", "quantifier": "all leaves, nodes, tags", "why_tests_cant": "Universally quantified over all values.", "anchors": ["commit_verify/src/mpc/atoms.rs: Leaf (tags 0x10, 0x11)", "commit_verify/src/merkle.rs: NodeBranching, MerkleNode", "commit_verify/src/digest.rs: from_tag"]}
{"id": "C26", "title": "A generic one-leaf Merkle root is not separated from an inner node", "statement": "Merklizing a single leaf returns that leaf's id; for a leaf type whose encoding may look like a node (MerkleNode itself qualifies) a one-element list and a two-element list with equal roots exist (refutation of unconditional binding).", "quantifier": "leaf types", "why_tests_cant": "Needs a crafted leaf type.", "anchors": ["commit_verify/src/merkle.rs: merklize, MerkleNode: CommitEncode"]}
{"id": "C27", "title": "MPC commitment binds the whole tree", "statement": "Two trees produced by try_commit with equal commit_ids have the same depth, cofactor, messages and position map, and the same entropy if any position is vacant; otherwise two distinct hashed strings collide.", "quantifier": "all pairs of trees, all hash functions", "why_tests_cant": "Adversarial search over trees.", "anchors": ["commit_verify/src/mpc/tree.rs: MerkleTree, conceal, commit_id"]}
{"id": "C28", "title": "MerkleBuoy tracks complete subtrees", "statement": "Starting a buoy at the depth of the first node and pushing depths of the following nodes of the frontier of a subtree rooted at depth d, level() is greater than d after every proper prefix and equals d (with no pending stack) exactly when the subtree is complete; push returns true iff the outermost buoy moved up.", "quantifier": "all binary subtree frontiers of any shape", "why_tests_cant": "All shapes of frontiers.", "anchors": ["commit_verify/src/merkle.rs: MerkleBuoy::{new,level,push}"]}
{"id": "C29", "title": "Protocol positions are in range", "statement": "protocol_id_pos returns the little-endian 256-bit value of the id modulo max(1, 2^depth - cofactor): always below the tree width, for every cofactor including those exceeding the width, with no truncation or panic.", "quantifier": "all ids, cofactors, depths", "why_tests_cant": "2^256 ids.", "anchors": ["commit_verify/src/mpc/tree.rs: protocol_id_pos"]}
{"id": "C30", "title": "Widths never underflow on constructed trees", "statement": "For trees returned by try_commit, the blocks and the proofs derived from them, cofactor <= 500 and cofactor < width, so factored_width does not underflow and equals the number of usable positions (>= number of messages). On decoded values it can underflow: panics in debug, wraps in release (refutation).", "quantifier": "all sources; all decoded values", "why_tests_cant": "All search outcomes.", "anchors": ["commit_verify/src/mpc/tree.rs: factored_width, try_commit", "commit_verify/src/mpc/block.rs: factored_width"]}
{"id": "C31", "title": "Proof enumeration is complete", "statement": "MerkleTree::into_proofs / MerkleBlock::into_known_proofs yield, without panic, exactly one proof for each revealed protocol in position order, each convolving with its message to the commitment.", "quantifier": "all trees from try_commit and their derived blocks", "why_tests_cant": "All trees.", "anchors": ["commit_verify/src/mpc/block.rs: into_known_proofs", "commit_verify/src/mpc/tree.rs: into_proofs"]}
{"id": "C32", "title": "Known message map lists exactly the revealed messages", "statement": "to_known_message_map of a block built from a tree is the source MessageMap; after concealing to a set it is the restriction to it; after merging, the union.", "quantifier": "all trees, sets, merges", "why_tests_cant": "All.", "anchors": ["commit_verify/src/mpc/block.rs: to_known_message_map, known_protocol_ids"]}
{"id": "C33", "title": "Strict encoding of MPC structures round-trips canonically", "statement": "For MerkleProof, MerkleBlock, MerkleTree, MerkleConcealed, Leaf and MerkleNode: decoding an encoding (followed by arbitrary bytes) returns the value and the rest; any bytes that decode are the unique encoding of the value. The derived equality of ids, methods, tree nodes and trees holds exactly for equal values.", "quantifier": "all representable values, all byte strings", "why_tests_cant": "Round-trip and canonicity range over all byte strings.", "anchors": ["commit_verify/src/mpc/block.rs: derives", "commit_verify/src/mpc/tree.rs: derives", "commit_verify/src/mpc/atoms.rs: derives", "commit_verify/src/merkle.rs: derives"]}
{"id": "C34", "title": "Tagged hashing framework", "statement": "commit_id of a value equals SHA-256 of H(tag) || H(tag) || the concatenated encodings in the order of the commit calls, independent of how the data was split into calls; the commitment id does not depend on the recorded layout.", "quantifier": "all tags, all call sequences", "why_tests_cant": "All call sequences.", "anchors": ["commit_verify/src/id.rs: CommitEngine, CommitId", "commit_verify/src/digest.rs: from_tag"]}
{"id": "C35", "title": "Commit encoding is binding for a fixed sequence of typed fields", "statement": "If two values commit through the same sequence of steps whose encodings are self-delimiting, equal commitment ids imply equal fields or an exhibited collision.", "quantifier": "all field sequences, all values", "why_tests_cant": "All values.", "anchors": ["commit_verify/src/id.rs: commit_to_*"]}
{"id": "C36", "title": "Engine protocol: finished engines and field limit", "statement": "In debug builds any commit call after set_finished/as_layout panics, in release it still feeds the hasher; the 256th commit call panics in every build; otherwise calls never panic and each adds exactly one layout step in order. The kind of each failure is fixed: an unnamed type, too many leaves and a full layout fail an expectation in every build; a reserved type name and a finished engine fail a debug assertion.", "quantifier": "all call sequences", "why_tests_cant": "All lengths of call sequences.", "anchors": ["commit_verify/src/id.rs: CommitEngine::{commit_to_serialized,as_layout,set_finished}"]}
{"id": "C37", "title": "Derived commitment strategies", "statement": "The derive macro's strict, conceal, transparent and merklize strategies commit to, respectively, the strict encoding of the value, of the twice-concealed value, of the inner value, and to the Merkle root; each produces a one-step layout that is the same for all values of the type. If concealing is idempotent, a value and its concealed form commit identically.", "quantifier": "all values, all strategies", "why_tests_cant": "All values.", "anchors": ["commit_verify/derive/src/derive.rs: derive_encode", "commit_verify/derive/src/params.rs: StrategyAttr", "commit_verify/src/id.rs: commit_to_concealed"]}
{"id": "C38", "title": "Length-prefixed hashing input is unambiguous", "statement": "For data not longer than MAX, sequences of input_with_len::<MAX> calls feed equal byte streams only if the sequences of data are equal; MAX up to 2^32-1 never panics. Data longer than MAX is silently given a truncated length for 8, 16 and 32 bit prefixes (two different sequences with the same stream exist: refutation) and panics for the 24-bit one as long as the length modulo 2^32 is at least 2^24; from 2^32 bytes on even 24-bit prefixes are ambiguous (refutation).", "quantifier": "all data, all MAX, all call sequences", "why_tests_cant": "All lengths around prefixes boundaries and beyond.", "anchors": ["commit_verify/src/digest.rs: input_with_len"]}
{"id": "C39", "title": "Reserved bytes", "statement": "Decoding ReservedBytes<LEN, VAL> succeeds exactly on LEN bytes all equal VAL and consumes exactly LEN bytes; conversion from an array panics otherwise; all values of one type have the same commitment; serde round-trips them as unit, accepting only unit or none.", "quantifier": "all LEN, VAL, inputs", "why_tests_cant": "All inputs.", "anchors": ["commit_verify/src/lib.rs: ReservedBytes"]}
{"id": "C40", "title": "Commit-verify scheme", "statement": "Default CommitVerify::verify returns Ok iff committing to the message gives this very commitment; TryCommitVerify::verify distinguishes uncommittable messages (InvalidMessage) from mismatches (InvalidCommitment).", "quantifier": "all implementations, messages, commitments", "why_tests_cant": "All implementations of the trait.", "anchors": ["commit_verify/src/commit.rs: CommitVerify::verify, TryCommitVerify::verify"]}
{"id": "C41", "title": "Embed-commit-verify scheme", "statement": "For every implementation that restores the original container from proof and commitment, verifying an honest commitment is Ok; whenever verify is Ok, the container restored from the proof commits to the message giving an equivalent container and proof; so one (container, proof) verifying for two messages means both messages embed to equivalent results from one original. Failures are classified: restore errors are passed through, uncommittable -> InvalidMessage, proof differs -> InvalidProof (ProofMismatch is never produced), container differs -> CommitmentMismatch.", "quantifier": "all implementations, containers, messages, proofs", "why_tests_cant": "All implementations.", "anchors": ["commit_verify/src/embed.rs: EmbedCommitVerify::verify"]}
{"id": "C42", "title": "Convolve-commit-verify scheme", "statement": "Same for ConvolveCommitProof::verify: complete for lawful implementations, sound in that Ok means the restored source with the extracted supplement commits to the message producing this proof and commitment, with errors ImpossibleMessage, InvalidProof, CommitmentMismatch exactly as documented.", "quantifier": "all implementations, sources, messages, proofs", "why_tests_cant": "All implementations.", "anchors": ["commit_verify/src/convolve.rs: ConvolveCommitProof::verify"]}
{"id": "C43", "title": "Validity verdict is exact", "statement": "Status::validity is Invalid iff there is a failure; SealIssues iff there are no failures but a seal issue; Valid iff neither; warnings and info never influence it. Adding reports can only make the verdict worse.", "quantifier": "all statuses, all sequences of add operations", "why_tests_cant": "All histories.", "anchors": ["src/api.rs: Status::validity, add_*"]}
{"id": "C44", "title": "Status accumulation", "statement": "+= appends the four logs in order; new() is neutral and += associative; validity of a sum is the worse of the two; any sequence of add_* calls and merges keeps every reported entry exactly once in order.", "quantifier": "all statuses, all histories", "why_tests_cant": "All histories.", "anchors": ["src/api.rs: AddAssign for Status, FromIterator"]}
{"id": "C45", "title": "Client-side validation runs to completion", "statement": "client_side_validate calls the resolver exactly once for each seal of each item, in order, regardless of failures, with the resolver state threaded through; the resulting status contains precisely own reports, then for each item the resolver issues followed by the item's reports; the verdict is Valid iff everything reported is empty and each resolution succeeded. Seals returned by the top-level object itself are not resolved.", "quantifier": "all data hierarchies, all stateful resolvers", "why_tests_cant": "Resolvers are stateful and arbitrary; hierarchies unbounded.", "anchors": ["src/api.rs: ClientSideValidate::client_side_validate"]}
{"id": "C46", "title": "Validity ordering is not severity", "statement": "The derived Ord compares discriminants: Invalid < Valid < SealIssues; so neither min nor max of verdicts gives the verdict of the merged status (refutation of severity ordering), while the verdict of the merged status is determined by the two verdicts. The three values are stored as 0, 1 and 255.", "quantifier": "all statuses", "why_tests_cant": "Needs the right combination of statuses.", "anchors": ["src/api.rs: Validity"]}
{"id": "C47", "title": "Seal closing verification is exact", "statement": "verify_seals_closing returns Ok iff every seal is included in the witness under the message, the client-side witness convolves the message to some proof and the published witness verifies that proof; the error names the first seal not included in order, else the client error, else the published error. verify_seal_closing is the one-seal case. With no seals only the commitment is checked.", "quantifier": "all seal protocols, witnesses, seal lists, messages", "why_tests_cant": "All implementations and all lists.", "anchors": ["single_use_seals/src/lib.rs: SealWitness::{verify_seal_closing,verify_seals_closing}"]}
{"id": "C48", "title": "A seal closes over one message", "statement": "For any published witness that accepts at most one proof value and any client witness whose convolution is injective in the message, two successful closings with the same witness are over the same message; NoWitness is such; and with MPC Merkle proofs as client-side witness, even two different client-side proofs under one published commitment close over the same message (or a collision is exhibited).", "quantifier": "all seal protocols; all MPC proofs", "why_tests_cant": "Adversarial witnesses.", "anchors": ["single_use_seals/src/lib.rs: verify_seals_closing, NoWitness", "commit_verify/src/mpc/block.rs: convolve"]}
{"id": "C49", "title": "Commitment layout rendering", "statement": "CommitLayout::to_vesper renders exactly one child per recorded step, in order, with a predicate that identifies the kind of the step and collection bounds kept; it drops library names, so layouts differing only in library names render identically (refutation of faithfulness).", "quantifier": "all layouts", "why_tests_cant": "All layouts.", "anchors": ["commit_verify/src/vesper.rs: to_vesper"]}
{"id": "C50", "title": "Returned cross-section length can wrap", "statement": "merge_reveal returns the number of nodes modulo 2^16: equal to the number of nodes whenever there are fewer than 65536; not in general (refutation).", "quantifier": "all merges", "why_tests_cant": "Needs blocks with more than 65535 nodes.", "anchors": ["commit_verify/src/mpc/block.rs: merge_reveal (as u16)"]}
{"id": "C51", "title": "A commitment fixes a prefix of the cross-section", "statement": "Whenever commit_id of a representable block returns in either profile, the cross-section starts with the frontier of exactly one complete tree and the commitment is that of this tree; what follows is ignored (and is empty with debug assertions). If it equals the commitment of a constructed tree, every leaf of that prefix is a message of the tree at its position, or a collision is exhibited.", "quantifier": "all representable blocks, both profiles, all hash functions", "why_tests_cant": "Adversarial decoded blocks.", "anchors": ["commit_verify/src/mpc/block.rs: conceal, conceal_except, commit_id"]}
{"id": "C52", "title": "Extracting proofs from any well-formed block", "statement": "For a well-formed block, into_merkle_proof succeeds for every id revealed exactly once, giving a proof of the block's depth which convolves to the block's commitment when the leaf is at its position; for an id revealed more than once it panics with debug assertions and otherwise yields a proof too short to convolve to the commitment (or a collision). A misplaced leaf yields a proof of another commitment (refutation).", "quantifier": "all well-formed blocks", "why_tests_cant": "All blocks, including ones never produced by a tree.", "anchors": ["commit_verify/src/mpc/block.rs: to_merkle_proof, into_merkle_proof"]}
{"id": "C53", "title": "Decoded trees", "statement": "For any representable (for example decoded) MerkleTree commit_id is total, agrees with that of the block made from it and with the root; it depends exactly on depth, cofactor, the slots within the width, and the entropy when some slot is empty (or a collision is exhibited); it does not depend on the message map (refutation).", "quantifier": "all representable trees", "why_tests_cant": "Trees with inconsistent fields.", "anchors": ["commit_verify/src/mpc/tree.rs: MerkleTree, root, conceal"]}
{"id": "C54", "title": "Default sources and entropy", "statement": "with_static_entropy and the default source commit to an all-decoy tree of depth 3; different entropies give different commitments (or a collision); entropy never influences depth, cofactor or placement.", "quantifier": "all entropies and sources", "why_tests_cant": "All entropies.", "anchors": ["commit_verify/src/mpc/tree.rs: MultiSource::with_static_entropy, Default"]}
{"id": "C55", "title": "Availability of commitments", "statement": "A source with at most ten messages and minimal depth at most 30 always commits; one with at most one message commits at the minimal depth with cofactor 0. With minimal depth 31 two messages can fail, and about a thousand crafted protocol ids fail for the default depth (refutations).", "quantifier": "all sources with at most ten messages", "why_tests_cant": "Number-theoretic: all 256-bit ids.", "anchors": ["commit_verify/src/mpc/tree.rs: try_commit"]}
{"id": "C56", "title": "Number of aggregation passes", "statement": "Concealing a well-formed block needs at most depth + 1 passes over the cross-section (not the number of nodes), for every depth some block needs all of them.", "quantifier": "all well-formed blocks", "why_tests_cant": "Worst-case bound.", "anchors": ["commit_verify/src/mpc/block.rs: conceal_except"]}
{"id": "C57", "title": "Release refines debug", "statement": "Whatever a public MPC function returns with debug assertions and overflow checks it also returns without; the converse fails (refutation) but holds for concealing, committing and proof extraction on well-formed blocks.", "quantifier": "all inputs", "why_tests_cant": "Quantifies over both builds and all inputs.", "anchors": ["commit_verify/src/mpc/block.rs", "commit_verify/src/mpc/tree.rs"]}
{"id": "C58", "title": "Concealing and merging are inverse", "statement": "Merging a well-formed block with any concealed version of it gives back exactly the block (in the other order: its cross-section without entropy); merging two concealed versions gives exactly what concealing to the union of the id lists gives.", "quantifier": "all well-formed blocks and id lists", "why_tests_cant": "All blocks and id lists.", "anchors": ["commit_verify/src/mpc/block.rs: conceal_except, merge_reveal"]}
{"id": "C59", "title": "SHA-256 and its reduction", "statement": "The modelled SHA-256 computes exactly the run FIPS 180-4 prescribes (padding, 512-bit blocks, chaining, digest), there is exactly one such run per input, and any collision among strings shorter than 2^61 bytes yields a collision or a padding-consistent collision of the compression function among the calls made; so the binding theorems instantiated with SHA-256 end in its compression function.", "quantifier": "all inputs", "why_tests_cant": "All byte strings and all collisions, none of which is known.", "anchors": ["commit_verify/src/digest.rs", "commit_verify/src/mpc/block.rs: convolve"]}
{"id": "C60", "title": "A proof is unique and comes from the tree", "statement": "Two valid proofs that convolve the same protocol to the same commitment are equal byte for byte (and so are the messages), or there is a collision; a proof convolving to the commitment of a constructed tree is exactly the one the tree itself extracts for that protocol.", "quantifier": "all proofs, protocols, messages, sources, entropies, hash functions", "why_tests_cant": "Quantifies over forged proofs.", "anchors": ["commit_verify/src/mpc/block.rs: convolve, into_merkle_proof", "commit_verify/src/mpc/tree.rs: try_commit"]}
{"id": "C61", "title": "Maximally concealed blocks are canonical", "statement": "Well-formed maximally concealed blocks with the same commitment and the same revealed leaves have the same cross-section; concealing any two well-placed blocks with the same commitment to the same ids gives the identical block, whatever else they revealed; or there is a collision.", "quantifier": "all blocks and id lists", "why_tests_cant": "All pairs of blocks not derived from a common tree.", "anchors": ["commit_verify/src/mpc/block.rs: conceal_except, commit_id"]}
{"id": "C62", "title": "When entropy blinds the commitment", "statement": "If the messages fill the tree the commitment does not depend on entropy at all (in particular for one message at minimal depth 0); if a slot is free, equal commitments for the same messages force equal entropy, or there is a collision.", "quantifier": "all sources and entropies", "why_tests_cant": "All entropies and message maps.", "anchors": ["commit_verify/src/mpc/tree.rs: try_commit, root"]}
{"id": "C63", "title": "Seals anchored in an MPC commitment", "statement": "If a published witness anchors the commitment of a constructed tree, the holder of an extracted proof closes every included seal over the tree's message; and whatever closes under it is a message of the tree for that protocol, proven by the tree's own proof, with all seals included, or there is a collision.", "quantifier": "all seal protocols, trees, witnesses, seal lists", "why_tests_cant": "All seal protocols and forged witnesses.", "anchors": ["single_use_seals/src/lib.rs: verify_seals_closing", "commit_verify/src/mpc/block.rs: convolve"]}
{"id": "C64", "title": "Encoded sizes", "statement": "The encoded size of proofs, blocks and trees is an exact linear function of their parts; proofs of any tree take 8+32*depth bytes, at most 1000; concealing n elements saves at least 31*n bytes and never enlarges the encoding.", "quantifier": "all values, trees, blocks, id lists", "why_tests_cant": "All values.", "anchors": ["commit_verify/src/mpc/block.rs:154-155,668-690", "commit_verify/src/mpc/tree.rs:42-44"]}
{"id": "C65", "title": "What a commitment excludes", "statement": "Valid proofs convolving to one commitment agree on depth, cofactor and method, and at one position on everything; no more protocols can be proven under a commitment than its trees have positions; a block revealing another protocol at a protocol's position shows that no message of that protocol can be proven; each unless an explicit collision is exhibited.", "quantifier": "all hash functions, proofs, protocols, messages, blocks", "why_tests_cant": "Non-existence of proofs over all forged proofs.", "anchors": ["commit_verify/src/mpc/block.rs: convolve", "commit_verify/src/mpc/tree.rs: protocol_id_pos"]}
{"id": "C66", "title": "Merging with untrusted blocks", "statement": "A successful merge in a debug build of a block of an honest tree with any block reveals only messages of the tree, or there is a collision; the same in release builds if the heights sum up exactly. Without that it is false: for every well-formed block of depth at least 2 and every protocol and message there is a decodable block whose merge succeeds in release, keeps the commitment and adds that leaf (refutation).", "quantifier": "all hash functions, trees, blocks, profiles", "why_tests_cant": "Quantifies over malicious blocks; the refuting block has thousands to billions of nodes.", "anchors": ["commit_verify/src/mpc/block.rs: merge_reveal"]}
{"id": "C67", "title": "Failing encoders", "statement": "With an encoder that succeeds the engine behaves as modelled in C34; if the encoder of a value fails, no commitment is produced in debug builds; in release builds the id commits exactly to the bytes written before the failure, so different unencodable values get equal ids (refutation of binding). This holds for every call of the engine which serializes a value (single values, options, concealed values, lists, sets, maps), including the recorded step.", "quantifier": "all types, encoders, values, hash functions", "why_tests_cant": "All encoders.", "anchors": ["commit_verify/src/id.rs:75-80"]}
{"id": "C68", "title": "Ids commit to tag and bytes, not to the layout", "statement": "Two runs of the engine give equal digests iff tag and concatenated bytes are equal, or there is a collision among the tags and hashed strings; hence the recorded layout is not committed to: a hashed field, a one-leaf merklized field and a concealed field give one id with three layouts (refutation).", "quantifier": "all field sequences, tags, hash functions", "why_tests_cant": "All runs and collisions.", "anchors": ["commit_verify/src/id.rs:66-210"]}
{"id": "C69", "title": "Derive attribute", "statement": "The attribute of the derive macro is accepted iff its arguments are distinct, known, and contain an id and one of the four strategies; the crate defaults to commit_verify; the generated implementation commits under the tag of the given id to what the strategy prescribes.", "quantifier": "all argument lists and types", "why_tests_cant": "All argument lists.", "anchors": ["commit_verify/derive/src/params.rs", "commit_verify/derive/src/derive.rs"]}
{"id": "C70", "title": "A check for untrusted blocks", "statement": "A decoded block is well-formed iff its commit_id returns, the heights of its nodes sum up to the width and no node is deeper than the tree (in debug builds the sum need not be checked); once checked, committing, concealing, extracting proofs of once-revealed ids and merging with another checked block never panic and keep well-formedness, and a block sharing the commitment of a constructed tree reveals only its messages, in both profiles, up to explicit collisions.", "quantifier": "all decodable blocks, profiles, hash functions", "why_tests_cant": "All decodable blocks.", "anchors": ["commit_verify/src/mpc/block.rs"]}
{"id": "C71", "title": "Nested commitments bind", "statement": "If two values commit through the same sequence of typed fields, one of which is the commitment id of an inner value or the Merkle root of a list of inner values, equal outer ids force the inner values, and the whole lists, to be equal, or a collision among the strings hashed inside and outside is exhibited.", "quantifier": "all field sequences, tags, inner values, hash functions", "why_tests_cant": "All nested values and collisions.", "anchors": ["commit_verify/src/id.rs: commit_to_hash, commit_to_merkle"]}
{"id": "C72", "title": "Contents of Merkle proofs", "statement": "The proof extracted for a revealed protocol from any block derived from a tree contains exactly the hashes of the subtrees left aside on the way to its position, from the root down, with the method, position and cofactor of the tree; so a proof does not depend on the protocol's own message, and changing the message of one protocol changes in the proof of every other exactly the one hash at the level where the two ways part, all else being equal, or a collision is exhibited.", "quantifier": "all sources, blocks derived from their trees, profiles, hash functions", "why_tests_cant": "Quantifies over trees, histories of operations and changed messages.", "anchors": ["commit_verify/src/mpc/block.rs: to_merkle_proof, conceal_except", "commit_verify/src/mpc/tree.rs"]}
{"id": "C73", "title": "Encoded proofs and blocks cannot be malleated", "statement": "Two byte strings which decode (without rest) to proofs convolving one protocol to one commitment are equal, as are the messages; two byte strings decoding to maximally concealed well-formed blocks of one commitment with the same revealed leaves and entropy are equal; or a collision is exhibited. The entropy of a block is not covered by its commitment, so blocks in general are malleable.", "quantifier": "all byte strings, profiles, hash functions", "why_tests_cant": "Quantifies over all byte strings.", "anchors": ["commit_verify/src/mpc/block.rs: MerkleProof, MerkleBlock strict encoding, commit_id, convolve_commit"]}
{"id": "C74", "title": "Positions are evenly distributed", "statement": "For every depth, cofactor and usable position i the protocol ids falling on i are counted exactly: their number is floor or ceiling of 2^256 divided by the number of usable positions; positions from width minus cofactor on are never used, neither by an id nor by a constructed tree; with cofactor 0 the position depends on the first four bytes of the id alone.", "quantifier": "all depths up to 31, cofactors, positions, ids", "why_tests_cant": "2^256 ids.", "anchors": ["commit_verify/src/mpc/block.rs: protocol_id_pos", "commit_verify/src/mpc/tree.rs"]}
{"id": "C75", "title": "Exact outcome of merging", "statement": "Blocks with a commit_id in a debug build merge successfully iff both are well-formed and the commitments equal (or a collision is exhibited); in both profiles complete frontiers of equal commitments either merge, being both well-formed, or panic; an error is returned iff both commitments can be computed and differ, with the receiver unchanged and the two commitments named.", "quantifier": "all decodable blocks, profiles, hash functions", "why_tests_cant": "All pairs of blocks.", "anchors": ["commit_verify/src/mpc/block.rs: merge_reveal, commit_id"]}
{"id": "C76", "title": "Seal witnesses: encoding and reported errors", "statement": "The encoding of a seal witness round-trips and is canonical whenever those of its parts are; two byte strings decoding to witnesses with one published part and Merkle proofs as client parts, both closing seals under one protocol, are equal, with equal messages, or a collision is exhibited; a refusal names the first seal not included and the published witness, without source, else carries the client error, else the published one, as text and as source.", "quantifier": "all seal protocols, witnesses, byte strings, seals", "why_tests_cant": "Quantifies over implementations of the traits.", "anchors": ["single_use_seals/src/lib.rs: SealWitness, SealError", "commit_verify/src/mpc/block.rs"]}
{"id": "C77", "title": "Merklized collections", "statement": "The root of a merklized set does not depend on the order or multiplicity of insertion; equal roots of two sets (vectors) of elements committed to with a tag other than that of Merkle nodes imply the same elements (the same sequence), for any sizes including one and none, or a collision is exhibited; without such a tag a set of one element can pose as another set.", "quantifier": "all element types, orders, sets, vectors, hash functions", "why_tests_cant": "Quantifies over types, sets and hash functions.", "anchors": ["commit_verify/src/merkle.rs: MerkleLeaves, MerkleHash::merklize"]}
{"id": "C78", "title": "Sessions with untrusted parties", "statement": "For an honest tree, whatever is held after any sequence of operations, successful or failing, on blocks and proofs decoded from bytes sent by anyone, started from something that commits to the tree's commitment: either it commits to the tree's commitment, has its method, depth and cofactor, shows only messages of the source at their positions, and is a view of the tree, or a collision among the strings hashed is exhibited; concealing never panics, merging two held blocks always succeeds with the union, extracted proofs are those of the tree, and concealing gives the block the tree itself gives; all honestly derived blocks are among those held.", "quantifier": "all sources, trees, sequences of operations and of received bytes, hash functions, profiles", "why_tests_cant": "Quantifies over adversarial message sequences and hash functions.", "anchors": ["commit_verify/src/mpc/block.rs: conceal_except, merge_reveal, merge_reveal_path, to_merkle_proof, with"]}
{"id": "C79", "title": "Placeholder values and published layouts", "statement": "The placeholder (StrictDumb, Default) values of the crate's types have given bytes, are valid, well-formed and their commitments computable in both profiles; the default proof is the proof of every single-message tree of minimal depth 0; the layout which CommitmentLayout publishes by running the encoder on the placeholder is the layout of every value, for every encoder whose sequence of operations does not depend on the value and for all derive strategies; for encoders that vary it is not, and an absent optional field and a zero byte have equal layouts and digests.", "quantifier": "all types, encoders, values, hash functions", "why_tests_cant": "Quantifies over user types and their encoders.", "anchors": ["commit_verify/src/id.rs: CommitmentLayout, CommitEngine::commit_to_option", "commit_verify/src/mpc/block.rs: StrictDumb, Default", "commit_verify/derive/src/derive.rs"]}
{"id": "C80", "title": "RIPEMD-160 digests and framed data", "statement": "The RIPEMD-160 instance of DigestExt gives 20 bytes, the published hash of the tag's digest twice followed by all data fed, however split; two tags and data with one digest are equal or exhibit a collision of the compression function among the calls made for four named strings; two tags and sequences of items fed with length prefixes under one maximum and with one digest (RIPEMD-160 or the 32-byte instance) are equal, item by item, or a collision is exhibited.", "quantifier": "all tags, data, sequences of items, maxima below 2^32, 32-byte hash functions", "why_tests_cant": "Quantifies over all inputs; binding is a reduction.", "anchors": ["commit_verify/src/digest.rs: DigestExt<20> for Ripemd160, input_with_len"]}
{"id": "C81", "title": "What is shown does not determine what is hidden", "statement": "For two sources of equal method whose trees have equal depth and cofactor and which agree on the identifiers shown, either a collision is exhibited among the strings hashed for the two trees, or there is a hash function, different from the given one only on strings hashed for the second tree and not for the first, under which both trees have the commitment of the first, and concealing all but the shown identifiers, and every proof of a shown identifier, give for both exactly what they give for the first. So nothing in a block or a proof but depth, cofactor, method and the shown messages tells the trees apart otherwise than through the values of the hash at strings built from hidden content: neither the hidden messages nor their identifiers nor their number are determined.", "quantifier": "all hash functions, sources, entropies, sets of shown identifiers, profiles", "why_tests_cant": "Existence of an explanation for every alternative hidden content; quantifies over pairs of sources and over hash functions.", "anchors": ["commit_verify/src/mpc/block.rs: MerkleBlock::conceal_except, to_merkle_proof", "commit_verify/src/mpc/tree.rs: MerkleTree::commit_id, entropy leaves"]}
{"id": "C82", "title": "No double spend between clients", "statement": "Two clients validate their own histories with client_side_validate, each with a resolver that trusts a claim (seal, operation, witness) only if the published witness is the one of a common medium and the single-use seal is closed over the operation's CommitId with a Merkle proof. If both get Valid and their histories contain claims for the same seal, then operation, published witness and Merkle proof are the same, or a collision is exhibited among the strings hashed for the two proofs and the two operations. Conversely histories whose claims come from honestly built trees are found Valid by every resolver which trusts closed claims.", "quantifier": "all hash functions, seal protocols anchored in Merkle proofs, media, resolvers with arbitrary state, histories, encoders of operations, profiles", "why_tests_cant": "Composition of status collection, seal verification, commitment encoding and Merkle proofs over arbitrary pairs of histories and resolvers.", "anchors": ["src/api.rs: ClientSideValidate::client_side_validate, SealResolver", "single_use_seals/src/lib.rs: SealWitness::verify_seal_closing", "commit_verify/src/id.rs: CommitId::commit_id", "commit_verify/src/mpc/tree.rs, block.rs: MerkleProof::convolve, to_merkle_proof"]}
{"id": "C83", "title": "Published type library", "statement": "For every type of stl/CommitVerify@0.1.0.sty other than the reserved bytes, a byte string is an encoding of data as the published description says (strict encoding rules: little-endian integers, declared tags, length prefixes sized by the declared maximum, strictly increasing map keys) exactly when the decoder accepts those bytes and yields that data. Reserved bytes accepted by the decoder are described, but the published type also describes strings which the decoder refuses. No byte string encoded with the tags printed for Leaf in stl/Merkle.vesper is accepted as a Leaf. Those tags are the tags of the library less sixteen and otherwise the two descriptions of Leaf agree. The library names its types once, and its reserved types are ReservedBytes1 to ReservedBytes32 with that many bytes.", "quantifier": "all byte strings, all continuations of the stream, all data, all 14 published types and 32 reserved lengths, all reserved values", "why_tests_cant": "The repository's test compares a hash of the library only; equality of two languages of byte strings ranges over infinitely many strings.", "anchors": ["stl/CommitVerify@0.1.0.sty", "stl/Merkle.vesper:29-35", "commit_verify/src/stl.rs: _commit_verify_stl", "commit_verify/src/mpc/{atoms,tree,block}.rs, merkle.rs: derived StrictEncode/StrictDecode", "commit_verify/src/lib.rs: ReservedBytes"]}
{"id": "C84", "title": "Published layouts", "statement": "The text of the commitment layout which the code computes from any value of MerkleNode, Leaf, MerkleConcealed, MerkleBlock and MerkleTree, in the Vesper notation, is the one published in stl/Merkle.vesper.", "quantifier": "all values (not only the placeholder value used by the generator), hash functions, profiles", "why_tests_cant": "The generator prints the layout of one placeholder value; that no other value has another layout is a statement about all values.", "anchors": ["stl/Merkle.vesper", "commit_verify/src/bin/commit-stl.rs", "commit_verify/src/id.rs: CommitmentLayout::commitment_layout", "commit_verify/src/vesper.rs"]}
{"id": "C85", "title": "Results depend on the hash function exactly at the listed strings", "statement": "The commitment computed from a proof, a block or a tree, the root returned by merklize and the id produced by the commitment engine are the same for any two hash functions which agree on the strings listed for that computation (tags included). A proof of depth d uses d + 4 strings, a tree of depth d uses 2*2^d + 2, merklize of n items at most 2n. For a proof none of the strings can be left out: for each of them there is a hash function differing from the given one at this string only, among those listed, with which the same proof of the same message gives another commitment.", "quantifier": "every pair of hash functions, proof, message, block, tree, list of leaves, sequence of engine fields, tag, build mode", "why_tests_cant": "it quantifies over hash functions; tests run with SHA-256 only and cannot vary the value at a single string", "anchors": ["commit_verify/src/mpc/block.rs: MerkleProof::convolve, MerkleBlock::commit_id", "commit_verify/src/mpc/tree.rs: MerkleTree::root, commit_encode", "commit_verify/src/merkle.rs: MerkleHash::merklize", "commit_verify/src/id.rs: CommitEngine::new, commit_to_*, finish"]}
{"id": "C86", "title": "Most sets of protocols fit into a small tree", "statement": "Among the 2^(256 n) sequences of n protocol ids, those whose positions in a tree of depth D (cofactor 0) are pairwise different number exactly the product over k < n of 2^256 - k*2^(256-D); the others are at most a fraction n(n-1)/2^(D+1). For every set of protocols outside this exceptional part, whatever the messages and for every minimal depth up to D, try_commit succeeds with a tree of depth at most D. For every number of messages below 2^24 and every minimal depth up to 24 (not both zero) some valid source of that many messages commits with a tree of depth at most 24, although the text of TooManyMessages names a limit of 2^16.", "quantifier": "every depth up to 31, every number of messages, every source over the ids, every generator outcome", "why_tests_cant": "it counts over all 2^(256 n) sequences of ids; tests sample a few random sets", "anchors": ["commit_verify/src/mpc/tree.rs: MerkleTree::try_commit, protocol_id_pos"]}
{"id": "C87", "title": "Texts of ids, errors and verdicts", "statement": "The text of an id is the 64 lower-case hexadecimal digits of its bytes, higher half first, and no other string is. Parsing a text gives an id exactly if the text, upper case letters replaced by lower case ones, is the text of that id; so parsing inverts printing, and different ids have different texts. copy_from_slice gives an id exactly for slices with its 32 bytes. LeafNotKnown, InvalidProof, MergeError and mpc::Error values with different content have different texts, whatever ids and numbers they carry; the variants of VerifyError, ConvolveVerifyError and Validity have pairwise different texts; texts of EmbedVerifyError differ if those of the wrapped errors do.", "quantifier": "every id, string, slice, error value, injective text of wrapped errors", "why_tests_cant": "it ranges over all ids, strings and numbers; tests print a few values", "anchors": ["commit_verify/src/mpc/atoms.rs: ProtocolId, Message, Commitment (Display, FromStr), copy_from_slice", "commit_verify/src/mpc/block.rs: LeafNotKnown, InvalidProof, MergeError", "commit_verify/src/mpc/tree.rs: Error", "commit_verify/src/commit.rs: VerifyError", "commit_verify/src/embed.rs: EmbedVerifyError", "commit_verify/src/convolve.rs: ConvolveVerifyError", "src/api.rs: Validity"]}
{"id": "C88", "title": "The loops as written terminate and never index out of bounds", "statement": "The while/for/loop statements of conceal_except, merge_reveal, MerkleBlock::with, try_commit and MerkleBuoy::push, transcribed statement by statement with in-place changes, indices, stateful take_while closures and one shared map, compute exactly what the recursive model functions compute, panics included, for every input (also for blocks no tree produces). Hence every indexing is in bounds, remove(pos + 1) never fails, and each loop ends: conceal_except can only panic by arithmetic, or by its debug assertions in debug builds; the merging loop only by its unreachable!.", "quantifier": "every block, list of ids, pair of cross-sections, path, source, buoy, build mode, hash function", "why_tests_cant": "index safety and termination for every cross-section, including malformed decoded ones", "anchors": ["commit_verify/src/mpc/block.rs: conceal_except, merge_reveal, MerkleBlock::with", "commit_verify/src/mpc/tree.rs: try_commit", "commit_verify/src/merkle.rs: MerkleBuoy::push"]}
{"id": "C89", "title": "Derived orders", "statement": "The derived Ord of ids, reserved bytes, proofs, sources and errors are linear orders agreeing with equality; ids compare as big-endian numbers, proofs by position, cofactor and path, sources by depth, messages and entropy. Message maps are exactly the lists sorted in this order; collecting entries keeps the last value of each key and the resulting commitment does not depend on the order of entries with distinct keys. The order of ids is not the order of positions, and the order of proofs is not the order of their encodings.", "quantifier": "all values, all lists of entries, all hash functions", "why_tests_cant": "Order laws quantify over all triples of values.", "anchors": ["commit_verify/src/mpc/atoms.rs:33,51,71,123,149", "commit_verify/src/mpc/block.rs:667", "commit_verify/src/mpc/tree.rs:102", "commit_verify/src/id.rs:289", "commit_verify/src/merkle.rs:105", "commit_verify/src/lib.rs:91"]}
{"id": "C90", "title": "Breaking a commitment yields a collision at once", "statement": "A search over the strings hashed by both parties finds a collision whenever there is one. Two accepted proofs of different messages for one protocol and commitment yield a collision of strings of at most 162 bytes after hashing at most 70 strings, whatever the number of committed messages; two trees of different messages with one commitment, and two different lists of leaves with one root, yield one with work linear in their size. Conversely a collision of two leaves lets every proof of one message pass for the other.", "quantifier": "all hash functions, proofs, trees, lists of leaves", "why_tests_cant": "Quantifies over all hash functions and all successful attacks.", "anchors": ["commit_verify/src/mpc/block.rs: MerkleProof::convolve", "commit_verify/src/mpc/tree.rs: MerkleTree::try_commit", "commit_verify/src/merkle.rs: MerkleHash::merklize"]}
{"id": "C91", "title": "Texts of errors follow their templates; debug text of a client error is malformed", "statement": "Every error text is its documented template with each named place filled by the text of the field of that name, whatever the values. The Debug text of a seal error is the name of the variant followed by the fields in parentheses and its parentheses are nested whenever those of the fields are, for missing seals and for errors of the published witness; for errors of the client witness the text is never of this form and its parentheses are never nested (the name is written \"SealError::Client(err\").", "quantifier": "all errors, all texts of their parts", "why_tests_cant": "The fields and the texts of foreign errors are unbounded.", "anchors": ["commit_verify/src/mpc/block.rs: LeafNotKnown, InvalidProof, MergeError", "commit_verify/src/mpc/tree.rs: Error", "commit_verify/src/commit.rs: VerifyError", "commit_verify/src/embed.rs: EmbedVerifyError", "commit_verify/src/convolve.rs: ConvolveVerifyError", "single_use_seals/src/lib.rs: impl Debug for SealError"]}
{"id": "C92", "title": "Adversaries with a bounded number of hash queries", "statement": "Among all hash functions on the strings of at most n bytes (n >= 162), the fraction for which an adversary with unlimited computation and at most q adaptive hash queries presents two accepted proofs of different messages (or two different proofs) for one protocol and commitment is at most (q+70)(q+69)/2^257; presents a proof of a message which is not in a tree of depth at most D of its choice, for the commitment of that tree, at most (q+2*2^D+37)^2/2^257; presents two message sets with one commitment, at most (q+4*2^D+4)^2/2^257; presents two lists of at most k leaves with one Merkle root, at most (q+4k+4)^2/2^257. With 2^100 queries the first fraction is below 2^-56.", "quantifier": "all adversaries, query bounds, string lengths, sets of hash functions", "why_tests_cant": "Quantifies over all adaptive strategies and counts hash functions.", "anchors": ["commit_verify/src/mpc/block.rs: MerkleProof::convolve", "commit_verify/src/mpc/tree.rs: MerkleTree", "commit_verify/src/merkle.rs: MerkleHash::merklize"]}
{"id": "C93", "title": "Commitments hide the messages from adversaries with few hash queries", "statement": "For messages leaving a slot of the tree free and entropy drawn uniformly, the fraction of (entropy, hash function) pairs for which an adversary with unlimited computation and at most q adaptive hash queries says yes on seeing the commitment differs between any two message sets (trees of depth at most D) by at most 2q/2^64 + (2*2^D+2)^2/2^128, and from the fraction on a random value by half of that. The bound is of the right order: 2^64*(2*2^D+2) queries always recognise the messages, and if the messages fill the tree 2*2^D+2 queries suffice.", "quantifier": "all adversaries, query bounds, string lengths, pairs of sources", "why_tests_cant": "Quantifies over all adaptive strategies and counts hash functions and entropies.", "anchors": ["commit_verify/src/mpc/tree.rs: MerkleTree::try_commit, root", "commit_verify/src/mpc/tree.rs: CommitEncode for MerkleTree"]}
{"id": "C94", "title": "What a Merkle proof tells about the other messages", "statement": "Take two message sets with the same depth, cofactor and method, and a protocol which is in both. If every subtree beside the way from the root to its slot has an empty slot in both trees or is the same in both, then the fraction of (entropy, hash function) pairs for which an adversary with unlimited computation and at most q adaptive hash queries says yes on seeing the Merkle proof of that protocol differs by at most 2q/2^64 + (2*2^D+2)^2/2^127 (depth at most D). The condition is needed: if a subtree of height k beside the way has no empty slot, 2*2^k queries recognise the messages in it; in particular two queries recognise the message of the neighbour.", "quantifier": "all adversaries, query bounds, string lengths, pairs of sources, protocols", "why_tests_cant": "Quantifies over all adaptive strategies and counts hash functions and entropies.", "anchors": ["commit_verify/src/mpc/block.rs: MerkleBlock::to_merkle_proof", "commit_verify/src/mpc/tree.rs: MerkleTree::try_commit, root", "commit_verify/src/mpc/block.rs: From<MerkleTree> for MerkleBlock"]}
{"id": "C95", "title": "What a partially revealed block tells about the hidden messages", "statement": "Take two message sets with the same depth, cofactor and method which agree on the messages of a set of protocols, and conceal everything else (conceal_except). If every largest subtree without a shown message has an empty slot in both trees or is the same in both, then the fraction of (entropy, hash function) pairs for which an adversary with unlimited computation and at most q adaptive hash queries says yes on seeing the block differs by at most 2q/2^64 + (2*2^D+2)^2/2^127 (depth at most D), whatever and however many protocols are shown. The condition is needed: if a largest concealed subtree of height k has no empty slot, 2*2^k queries recognise the messages in it.", "quantifier": "all adversaries, query bounds, string lengths, pairs of sources, sets of shown protocols", "why_tests_cant": "Quantifies over all adaptive strategies and counts hash functions and entropies.", "anchors": ["commit_verify/src/mpc/block.rs: MerkleBlock::conceal_except", "commit_verify/src/mpc/block.rs: From<MerkleTree> for MerkleBlock", "commit_verify/src/mpc/tree.rs: MerkleTree::try_commit"]}
{"id": "C96", "title": "What the crate's suites for commitment schemes establish", "statement": "commit_verify_suite passes exactly when the messages are distinct and have distinct commitments; embed_commit_verify_suite exactly when each message can be embedded, the result with its proof verifies for this message alone and no earlier result verifies with a later proof; convolve_commit_verify_suite exactly when the messages are distinct and each commitment verifies for its message alone. Passing does not mean that the scheme is binding: the scheme of the test module passes with every container (with room for the messages: its limit of 65535 bytes is not modelled) and every list of distinct messages, and has one commitment which verifies for two messages with two proofs; the outcome depends on the order of the messages; the test convolution passes (or a hash collision is found) although its commitment ignores the container; the ten messages of gen_messages are pairwise different and related as their comments say, so the crate's own runs of the two suites pass for every container (the convolution unless a hash collision is found).", "quantifier": "all implementations of the traits, all lists of messages, all containers", "why_tests_cant": "It is about what the tests themselves can settle, for all implementations.", "anchors": ["commit_verify/src/commit.rs: test_helpers::commit_verify_suite", "commit_verify/src/embed.rs: test_helpers::embed_commit_verify_suite, convolve_commit_verify_suite", "commit_verify/src/lib.rs: test_helpers::gen_messages"]}
{"id": "C97", "title": "Extending hashed strings without knowing them", "statement": "The SHA-256 digest of the padding of x followed by any s is computed from the digest of x, the length and s alone. No string hashed for multi-protocol commitments (tags, leaves, entropy, nodes, commitments) arises by such an extension of another one unless the two tags collide, and with SHA-256 never; the padded string of a strictly encoded value under a tag is never a beginning of the string of another value of its type, and other tags have to collide. Data framed with input_with_len is not protected: for every sequence of framed strings the digest of the sequence with one more string is computed from its digest and length.", "quantifier": "all strings, all hash functions for the multi-protocol commitments and values, all lawful encodings, all sequences of framed strings whose maximal length allows 128 bytes", "why_tests_cant": "Concerns all pairs of hashed strings and what can be computed without one of them; tests hash known strings only.", "anchors": ["commit_verify/src/digest.rs: DigestExt::input_with_len, from_tag", "commit_verify/src/merkle.rs: MerkleHash", "commit_verify/src/mpc/tree.rs: commit", "commit_verify/src/id.rs: CommitEngine"]}
{"id": "C98", "title": "The hash functions are the published ones", "statement": "The SHA-256 and RIPEMD-160 with which the statements about concrete hashes are instantiated agree on every message with a description of the publications that shares no function with them: words as bit sequences, constants as roots of the first primes, message orders as iterated permutations, chaining as a relation; the same holds for each compression step.", "quantifier": "all messages, all proper inputs of the compression functions", "why_tests_cant": "Test vectors exercise few table entries on few words: an index wrong only where a word is zero in all vectors goes unnoticed.", "anchors": ["commit_verify/src/digest.rs: DigestExt for Sha256, Ripemd160"]}
{"id": "C99", "title": "What the crate's own randomised tests can report", "statement": "For every hash function, every number drawn and every entropy: the tests tree_empty, tree_conceal, entropy, single_leaf_tree, determin_tree, sparse_tree and merge_reveal pass; make_det_messages always gives one message, so determin_tree only ever sees trees with a single leaf; tree_id passes or exhibits a collision among the strings hashed for the tree; tree_id_entropy with nine different numbers passes or exhibits a collision among the strings hashed for the two trees, and with nine equal numbers always fails; tree_structure with nine different numbers fails exactly if the numbers are apart modulo 9 but not modulo any of 10..16 (which happens); tree_sizing and scalability pass whenever the numbers are apart in one of the widths which are tried (of depth at most 31, 15), and there are numbers for which they panic; tree_huge writes 1081362 bytes.", "quantifier": "every sequence of numbers the tests may draw, every entropy, every hash function, both build modes", "why_tests_cant": "The tests draw a handful of random numbers per run: a run says nothing about the other draws, and a failure which occurs in one run out of 1500 looks like noise.", "anchors": ["commit_verify/src/mpc/tree.rs:219-402", "commit_verify/src/mpc/block.rs:735-829"]}
{"id": "C100", "title": "Documents read and written by serde", "statement": "With the feature serde, every value of the Rust types (blocks, proofs, concealed roots, tree nodes, ids, errors, validation statuses, seal witnesses) is written as a document with the names given by the attributes and read back equal. The documents which are read are characterized exactly: a map with every member once, in any order and with any unknown members, or a list of all members; the entropy of a block may be missing, hexadecimal digits have either case; a member given twice or a missing one is refused. If the foreign types u5 and Confined check their bounds, whatever is read is a value that strict decoding yields too; if they do not, blocks of depth 255 or without nodes and proofs with more than 32 hashes are read. Unlike strict encodings, documents are not canonical.", "quantifier": "all documents, all values, all report and witness types with lawful readers", "why_tests_cant": "Quantifies over all documents and values; the crate has no test of the serde implementations.", "anchors": ["commit_verify/src/mpc/block.rs: MerkleBlock, MerkleProof, MerkleConcealed, TreeNode, InvalidProof (cfg_attr serde)", "commit_verify/src/mpc/atoms.rs: Method, ProtocolId, Message, Commitment", "commit_verify/src/convolve.rs: ConvolveVerifyError", "src/api.rs: Status", "single_use_seals/src/lib.rs: SealWitness"]}
{"id": "C101", "title": "What any number of proofs and blocks tell about the messages never revealed", "statement": "An adversary asks, one after another and depending on all answers so far, for the commitment, for Merkle proofs, for blocks with everything but chosen protocols concealed, and for hashes. Take two message sets with the same depth, cofactor and method which agree on the protocols the adversary may name. If every largest subtree without a message of these protocols has an empty slot in both trees or is the same in both, then the fractions of (entropy, hash function) pairs for which the adversary ends with yes differ by at most 2(q + (v+1)(2*2^D+2))/2^64 + (2*2^D+2)^2/2^127 for q hashes, v openings and depth at most D: openings tell no more together than the one block showing all of them. Every such conversation has exactly one outcome. Adversaries who see one block, one proof or the commitment are special cases, and the condition is needed.", "quantifier": "all interactive adversaries, query bounds, numbers of openings, string lengths, pairs of sources, sets of protocols", "why_tests_cant": "Quantifies over all adaptive strategies and counts hash functions and entropies.", "anchors": ["commit_verify/src/mpc/block.rs: MerkleBlock::conceal_except, to_merkle_proof", "commit_verify/src/mpc/block.rs: From<MerkleTree> for MerkleBlock", "commit_verify/src/mpc/tree.rs: MerkleTree::try_commit, conceal"]}
{"id": "C102", "title": "What proofs and blocks of any number of commitments tell about the messages never revealed", "statement": "An adversary converses about s commitments made with independently drawn entropies and one hash function: it asks, depending on all answers so far, for the commitments, for Merkle proofs and for partially concealed blocks of any of them, and for hashes. Compare two lists of message sets which pairwise agree in method, depth, cofactor and the messages of the protocols the adversary may name for that commitment, with every largest concealed subtree blinded by an empty slot in both or the same in both. The fractions of (entropies, hash function) for which the adversary ends with yes differ by at most 2s(q + (v+1)(5*2^D+4))/2^64 + s(2*2^D+2)^2/2^127 for q hashes, v openings and depth at most D. In particular it does not help that hidden messages or hidden protocols occur in several commitments.", "quantifier": "all interactive adversaries, numbers of commitments, query bounds, numbers of openings, string lengths, lists of pairs of sources, sets of protocols", "why_tests_cant": "Quantifies over all adaptive strategies and counts hash functions and entropies.", "anchors": ["commit_verify/src/mpc/block.rs: MerkleBlock::conceal_except, to_merkle_proof", "commit_verify/src/mpc/block.rs: From<MerkleTree> for MerkleBlock", "commit_verify/src/mpc/tree.rs: MerkleTree::try_commit, conceal"]}
{"id": "C103", "title": "Depth and work which chosen protocols can force", "statement": "When the widths tried down to depth D have no common multiple below 2^(256 n(n-1)/2), every n >= 2 protocols commit with a tree of depth at most D. So with minimal depth at most 7 two protocols never need more than depth 8, three 10, four 11, ..., ten 18, however they are chosen; two protocols with minimal depth m <= 30 never need more than max(8, m+1), and this is reached for every m. There are 280 protocols such that every source containing them, with any minimal depth, any messages and any further protocols, is rejected with CantFitInMaxSlots. try_commit makes exactly as many attempts as there are allowed pairs of depth and cofactor up to the one chosen (all of them when it fails), never more than 11544, and computes in total at least as many positions as it makes attempts and at most n times as many.", "quantifier": "all valid sources, entropies, minimal depths, numbers of messages", "why_tests_cant": "The identifiers which force deep trees are a vanishing part of the 2^256 and cannot be met by sampling; the bounds quantify over all of them.", "anchors": ["commit_verify/src/mpc/tree.rs: MerkleTree::try_commit", "commit_verify/src/mpc/tree.rs: protocol_id_pos", "commit_verify/src/mpc/tree.rs: COFACTOR_ATTEMPTS"]}
{"id": "C104", "title": "Work of concealing a block and computing a commitment", "statement": "Counting rounds of the outer loop (passes), rounds of the inner loop (looks), computed ids (hashed) and nodes shifted by Vec::remove (moved): conceal_except computes exactly as many ids as the number it returns, and when it fails it has computed one id for every leaf shown that was not to be kept and done nothing else. For every block of n nodes, well-formed or not, there are at most n passes, n(n+1)/2 looks, 2n-1 ids and (n-1)(n-2)/2 moves; for a well-formed one of depth d at most d+1 passes and (d+1)n looks. The commitment of every tree of depth d takes exactly d+1 passes, 2^d looks, 2*2^d ids and (4^d+2)/3 - 2^d moves, quadratic in the number of slots and independent of the number of messages; verifying a proof of depth d takes exactly d+1 passes, d(d+1)/2+1 looks, d+2 ids and as many moves as the sum of those j < d for which bit j of the position is 0, so at most d(d-1)/2, which the proofs of the first position need.", "quantifier": "all blocks (also malformed), sets of protocols, trees, proofs, messages, hash functions, build modes", "why_tests_cant": "A test measures the time of particular runs; the bounds and the exact counts are about all of them, including depths too large to execute.", "anchors": ["commit_verify/src/mpc/block.rs: MerkleBlock::conceal_except", "commit_verify/src/mpc/block.rs: MerkleBlock::conceal", "commit_verify/src/mpc/block.rs: MerkleProof::convolve", "commit_verify/src/mpc/tree.rs: MerkleTree::conceal"]}
{"id": "C105", "title": "Forging openings of commitments made beforehand", "statement": "Commitments to a list of valid sources are made with trees of depth at most D before the adversary starts; K = (number of commitments) * (2*2^D+2) strings are hashed for them. An adversary who asks q hashes and then shows a valid Merkle proof of one of these commitments for a message which is not committed to, or which is not exactly the proof the tree gives, succeeds for at most a fraction (K(K-1) + 2K(q+35))/2^257 of all hash functions: linear in q, not quadratic as when the adversary chooses the sources itself. The same holds for blocks of at most k nodes which show a message that is not committed to (q + 2k + 2) and for other sources with the same commitment (q + 2*2^D'+2). Proofs, blocks or trees for v fixed values which were not made by committing are found for at most v(q+...)/2^256 of the functions. With 2^20 commitments of depth at most 16 and 2^100 hashes the chance is below 2^-118. Behind it, for every hash function: each such forgery contains a string which is different from a string hashed for the original commitment and has the same hash.", "quantifier": "all adversaries, query bounds, string lengths, lists of sources, depths, sizes of blocks, hash functions", "why_tests_cant": "Quantifies over all strategies and counts hash functions.", "anchors": ["commit_verify/src/mpc/tree.rs: MerkleTree::try_commit, conceal", "commit_verify/src/mpc/block.rs: MerkleProof::convolve", "commit_verify/src/mpc/block.rs: MerkleBlock::conceal, conceal_except", "commit_verify/src/merkle.rs: MerkleHash::branch, MerkleNode::commit"]}
{"id": "C106", "title": "Attacks which reach the bounds for forgeries", "statement": "The bounds of C92 and C105 cannot be improved beyond constant factors. For every valid Merkle proof in the right position and every q up to 2^256 there is an adversary with q+1 hash queries which shows two different messages of the protocol with this proof and one commitment, and fails for at most a fraction 2^257/(2^257 + q(q-1)) of all hash functions; with 2^129 queries it succeeds for at least 3/5 of them. For commitments made beforehand and x different messages committed to for one protocol, there is an adversary with q + x + 3*2^D + 3 queries which shows another message for this protocol with a valid proof of one of the commitments, and fails for at most 2^256/(2^256 + xq) of the hash functions: the factor by which attacking many commitments at once is easier in C105 is real.", "quantifier": "all numbers of queries, string lengths, proofs, protocols, lists of sources, sets of committed messages", "why_tests_cant": "Counts hash functions; the attacks take more than 2^128 steps.", "anchors": ["commit_verify/src/mpc/block.rs: MerkleProof::convolve", "commit_verify/src/mpc/atoms.rs: Leaf", "commit_verify/src/mpc/tree.rs: MerkleTree::try_commit"]}
{"id": "C107", "title": "Bounds on forged ids, collections and double spends", "statement": "An adversary who may ask for a bounded number of hashes and compute without limit finds, for all but a small fraction of the hash functions, neither two values of the same kinds of fields with one commitment id, nor two different vectors (or sets) of elements with ids of their own and one Merkle root, nor two operations (or two proofs) for which two clients, who trust only seals closed on one medium, accept histories closing the same seal; with q questions the fraction is at most (q + c)(q + c - 1) / 2^257, where c is the number of hashes needed to recompute what was output, so 2^100 questions succeed against a fraction of at most 2^-56 of the hash functions.", "quantifier": "all adversaries, bounds on questions and sizes, field sequences, encoders, element types, tags, media, seal protocols, clients, histories, profiles", "why_tests_cant": "The statement counts all hash functions and ranges over all adaptive adversaries; tests run one hash function and a few inputs.", "anchors": ["commit_verify/src/id.rs: CommitId::commit_id, CommitEngine", "commit_verify/src/merkle.rs: MerkleLeaves, MerkleHash::merklize", "commit_verify/src/mpc/block.rs: MerkleProof::convolve", "single_use_seals/src/lib.rs: SealWitness::verify_seal_closing", "src/api.rs: ClientSideValidate::client_side_validate"]}
{"id": "C108", "title": "Committed values and operations cannot be replaced later", "statement": "Values, lists and operations are committed to before the adversary starts. An adversary who asks q hashes and then shows another value with the same kinds of fields and the id of one of these values, another list (neither of one leaf) with the root of one of these lists, or another operation which a careful client accepts, with a valid proof, for a seal whose published witness has the commitment under which the first operation was published, succeeds for at most a fraction (K(K-1) + 2K(q + c))/2^257 of the hash functions, where K is the number of hashes computed beforehand and c the number needed to recompute the output: linear in q. With 2^100 questions, trees of depth at most 16 and at most 2^16 hashes in Merkle fields an operation is replaced for less than 2^-137 of the functions. Behind it, for every hash function: such a replacement contains a string different from a string hashed for the original and with the same hash.", "quantifier": "all adversaries, query bounds, lists of earlier values, field sequences, encoders, sources, depths, media, seal protocols, clients, histories, hash functions", "why_tests_cant": "The statement counts all hash functions and ranges over all adaptive adversaries and all clients; tests run one hash function and a few inputs.", "anchors": ["commit_verify/src/id.rs: CommitId::commit_id, CommitEngine", "commit_verify/src/merkle.rs: MerkleHash::merklize", "commit_verify/src/mpc/tree.rs: MerkleTree::try_commit", "commit_verify/src/mpc/block.rs: MerkleProof::convolve", "single_use_seals/src/lib.rs: SealWitness::verify_seal_closing", "src/api.rs: ClientSideValidate::client_side_validate"]}
{"id": "C109", "title": "Histories sent over an untrusted channel", "statement": "A history is sent as the strict encoding of its claims (seal, operation, published witness, Merkle proof). If the sender's claims come from trees whose commitments are published, a client who trusts closed seals reads the bytes back and finds the history Valid. A client reads exactly one string for a list of claims: anything appended or cut off is refused. If two byte strings are accepted by clients trusting only seals closed on one medium and concern the same seals, they are equal byte by byte or a collision is exhibited. An adversary who asks q hashes and puts other bytes in place of m claims sent succeeds for at most a fraction (K(K-1) + 2K(q + m(k + 37)))/2^257 of the hash functions, K = m(k + 2^(D+1) + 4); 2^100 questions against 65536 claims at depth 16 give less than 2^-121.", "quantifier": "all lists of claims, encodings of seals, operations and witnesses, media, seal protocols, resolvers with state, adversaries, hash functions, profiles", "why_tests_cant": "Tests exercise single calls; the statement composes encoding, commitment, proofs, seals and validation for all inputs and all adversaries, and counts all hash functions.", "anchors": ["commit_verify/src/mpc/block.rs: MerkleProof (StrictEncode, StrictDecode), convolve", "commit_verify/src/mpc/tree.rs: MerkleTree::try_commit", "commit_verify/src/id.rs: CommitId::commit_id", "single_use_seals/src/lib.rs: SealWitness (StrictEncode, StrictDecode), verify_seal_closing", "src/api.rs: ClientSideValidate::client_side_validate"]}
{"id": "C110", "title": "Values nested to any depth", "statement": "A value is committed to by fields of its own, by the ids of other values and by Merkle roots of the ids of collections of values, to any depth, each with a tag of its own. The id is defined exactly if this value and every value in it has at most 255 parts, types with names, no reserved type in debug builds and collections of fewer than 2^32 items. If two values of the same type have one id, they are equal or a string hashed for one and a different string hashed for the other have the same hash; collections at the same place may differ in the number of items, also one against many, provided that the items do not use the tag of Merkle nodes. An adversary who asks q hashes outputs two such values with m values inside for at most a fraction Q(Q-1)/2^257 of the hash functions, Q = q + m(k + 2); replacing values committed to beforehand costs, linearly, (K(K-1) + 2K(q + m(k + 2)))/2^257. Both provisos are needed: a value and a collection of this one value are committed to alike, and a value with the tag of Merkle nodes has the id of a collection of two other values, for every hash function.", "quantifier": "all nested values, tags, field types, numbers of items, depths, adversaries, query bounds, hash functions, profiles", "why_tests_cant": "Tests use a few fixed structures; the statement is by induction over all nestings, ranges over all adversaries and counts all hash functions.", "anchors": ["commit_verify/src/id.rs: CommitEngine::commit_to_hash, commit_to_merkle, CommitId::commit_id", "commit_verify/src/merkle.rs: MerkleLeaves, MerkleHash::merklize"]}
{"id": "C111", "title": "Work of merging, extracting proofs and merklizing", "statement": "For every pair of blocks, well formed or decoded from anywhere, the merging loop makes at most as many rounds as either block has nodes and, counting a round for both blocks, together with the pushes into the buoys at most one step per node of the two blocks. For well-formed blocks with one commitment there are exactly na + nb - nc rounds and 2nc - na - nb pushes, na, nb and nc being the numbers of nodes of the two blocks and the merged one, or a collision is exhibited. The merged block has at most as many nodes and leaves as both together, and merging hashes at most once for every node and every revealed leaf of the first, the second and the merged block; exactly so in debug builds and for well-formed blocks. Extracting the proof of a message known once from a well-formed block with n nodes, k of them revealed, at depth D hashes exactly k + n - 2 - D times in at most D + 1 passes; extracting all proofs k(k + n - 2 - D) times, since each starts from a copy of the block: for a tree of depth d with m messages (2^d - m) + m((m - 1) + (2^d - 1 - d)) hashes. Merklizing n leaves, 2^j <= n < 2^(j+1), hashes exactly min(2n - 2^j, 2^(j+1)) - 1 nodes, so between n - 1 and (4n - 3)/3 for n >= 2. The counters of a merge are the sums of those of the commitments computed, the counters of extracting all proofs the sums of those of each proof. Without the counters the functions are the ones of the model. A proof is refused exactly with the id asked for, which the block does not show, after computing one id per leaf shown and without a pass over the nodes.", "quantifier": "all blocks, trees, sources, lists of leaves, protocol ids, hash functions, profiles", "why_tests_cant": "Tests measure single runs; the bounds hold for every input, including decoded blocks which no tree produces, and the exact counts for every size.", "anchors": ["commit_verify/src/mpc/block.rs: merge_reveal, to_merkle_proof, into_merkle_proof, into_known_proofs, conceal_except", "commit_verify/src/mpc/tree.rs: MerkleTree::into_proofs", "commit_verify/src/merkle.rs: MerkleHash::merklize, _merklize"]}
{"id": "C112", "title": "Clients misled by what an adversary sends them", "statement": "A client trusts in a commitment and goes through any script of operations chosen by an adversary who may query the hash function q times: blocks and proofs decoded from any bytes, with any claimed messages, are accepted or merged in by the library's own checks, held blocks are concealed to any ids, merged with each other, or proofs extracted from them; k bytes are received in all. The client is misled if the block held has another commitment, shows a message which was not committed to, gives a proof which differs from the committer's, panics when concealed, discloses something else than the committer would, or cannot be merged with an honest block of the tree. With j commitments by trees of depth at most D made beforehand this happens for a fraction of at most (K(K-1) + 2K(q+k))/2^257 of all hash functions, K = j(2*2^D+2); if the adversary chooses the source as well, for at most Q(Q-1)/2^257, Q = q + 2*2^D + 2 + k. The reason: any session misleads only with a second preimage of a string hashed for the tree. Two clients trusting in one commitment of unknown origin can merge their blocks, and the result shows exactly what either showed, except for a fraction Q(Q-1)/2^257, Q = q + 2k, if no proofs are extracted; with extraction this fails for SHA-256 itself (refutation): a proof extracted for a protocol shown at another place than its own belongs to another commitment.", "quantifier": "all adversaries (decision trees of hash queries), scripts, sources, lists of commitments, universes of strings of at least 162 bytes, profiles", "why_tests_cant": "Quantifies over all adversaries, all sequences of operations and all hash functions; the failure probability is below anything a test could observe.", "anchors": ["commit_verify/src/mpc/block.rs: MerkleBlock::with, conceal_except, merge_reveal, merge_reveal_path, to_merkle_proof, commit_id", "commit_verify/src/mpc/block.rs: MerkleProof::convolve", "commit_verify/src/mpc/tree.rs: MerkleTree::try_commit, commit_id"]}
{"id": "C113", "title": "Ids of values with a secret part hide the rest", "statement": "Values of any types with implementations of CommitEncode, each holding a secret drawn from S possibilities which changes the committed bytes, are published only by their commitment ids. An adversary asking q hashes tells the ids of r such values from r strings drawn at random with advantage at most r(q+2(r-1))/S over all secrets and all hash functions, hence the ids of one list of r values from those of any other list with at most twice that: with 32-byte secrets, 2^100 queries and 2^20 values the advantage is below 2^-134. The values need not be of one type or have one tag. A value has the property if one of its fields is serialized with a canonical codec from the secret and the other fields are the same for all secrets and not merklized. Without enough secrets nothing is hidden: S+1 queries recognise every id of a value and mistake a random string with frequency at most S/2^256.", "quantifier": "all adversaries (decision trees of hash queries seeing the ids), lists of values of all types and encoders, numbers of secrets, universes of strings", "why_tests_cant": "Quantifies over all adversaries and all hash functions; the advantage is below anything a test could observe.", "anchors": ["commit_verify/src/id.rs: CommitEncode, CommitId::commit_id, CommitEngine", "commit_verify/src/digest.rs: Sha256 tagged hash engine"]}
{"id": "C114", "title": "Opening some values tells nothing about the others", "statement": "An adversary sees the commitment ids of r values with secrets (as in C113), may ask q hashes and may, at any time and depending on everything seen so far, ask for the secrets of values of its choice. Between two lists of values which agree at all places whose secrets it may ask for, it distinguishes with advantage at most 2d(q+2(r-1))/S, where d is the number of other places and S the number of secrets; asking for any other secret counts as giving up. With 32-byte secrets, 2^100 hashes and 2^20 values this is below 2^-134.", "quantifier": "all adaptive adversaries (trees of questions for hashes and secrets), lists of values of all types and encoders, sets of places, numbers of secrets, universes of strings", "why_tests_cant": "Quantifies over all adaptive adversaries and all hash functions; the advantage is below anything a test could observe.", "anchors": ["commit_verify/src/id.rs: CommitEncode, CommitId::commit_id, CommitEngine", "commit_verify/src/conceal.rs: Conceal"]}
{"id": "C115", "title": "Ids do not tell which of two chosen values was committed to", "statement": "An adversary chooses pairs of values with secrets one after the other, each depending on everything it has seen, and is given the commitment ids of always the first or always the second members; it may also ask hashes at any time. With q hashes, r pairs and S possible secrets it tells the two cases apart with advantage at most 2r(q+2(r-1))/S. With 32-byte secrets, 2^100 hashes and 2^20 pairs this is below 2^-134. Every such adversary gets exactly one answer for every hash function and choice of secrets.", "quantifier": "all adaptive adversaries (trees of questions for hashes and for ids of pairs), values of all types and encoders, numbers of secrets, universes of strings", "why_tests_cant": "Quantifies over all adaptive adversaries and all hash functions; the advantage is below anything a test could observe.", "anchors": ["commit_verify/src/id.rs: CommitEncode, CommitId::commit_id, CommitEngine", "commit_verify/src/conceal.rs: Conceal"]}
{"id": "C116", "title": "Commitments do not tell which of two chosen sets of messages was committed to", "statement": "An adversary chooses pairs of sets of messages one after the other, each depending on everything it has seen (hashes and earlier commitments included), and is given the multi-protocol commitments to always the first or always the second sets, each with fresh 64-bit entropy; it may also ask hashes at any time. With q hashes, r pairs, trees of depth at most D and an empty slot in each, it tells the two cases apart with advantage at most r(2a/2^64 + (a + 2^64 w)^2/2^256) where w = 2*2^D+2 and a = q+(r-1)w. With 2^40 hashes, 2^10 pairs and trees of depth 16 this is at most 2^-12. Every such adversary gets exactly one answer for every hash function and choice of entropies.", "quantifier": "all adaptive adversaries (trees of questions for hashes and for commitments to pairs of sources), all valid sources with drawn entropy and an empty slot, universes of strings", "why_tests_cant": "Quantifies over all adaptive adversaries and all hash functions; the messages may themselves be hashes, so no fixed set of inputs covers them.", "anchors": ["commit_verify/src/mpc/tree.rs: try_commit, MerkleTree::commit_encode, root", "commit_verify/src/mpc/atoms.rs: Leaf::entropy"]}
{"id": "C117", "title": "Partially revealed blocks do not tell which of two chosen sets of messages they belong to", "statement": "An adversary chooses, one after the other and depending on everything it has seen (hashes and earlier blocks included), pairs of sets of messages together with the protocols to be shown, and is given the blocks of always the first or always the second sets in which all other protocols are concealed, each made with fresh 64-bit entropy; it may also ask hashes at any time. The two sets of a pair may differ in any messages which lie in concealed subtrees with an empty slot. With q hashes, r pairs and trees of depth at most D it tells the two cases apart with advantage at most r(4a/2^64 + 2(a + 2^64 w)^2/2^256) where w = 2*2^D+2 and a = q+(r-1)(3*2^D+2). With 2^40 hashes, 2^10 pairs and trees of depth 16 this is at most 2^-11. Every such adversary gets exactly one answer for every hash function and choice of entropies.", "quantifier": "all adaptive adversaries (trees of questions for hashes and for partially revealed blocks of pairs of sources), all pairs of valid sources which agree in what is shown, universes of strings", "why_tests_cant": "Quantifies over all adaptive adversaries and all hash functions; the messages may themselves be hashes of what was shown before, so no fixed set of inputs covers them.", "anchors": ["commit_verify/src/mpc/block.rs: MerkleBlock::from, conceal_except", "commit_verify/src/mpc/tree.rs: try_commit", "commit_verify/src/mpc/atoms.rs: Leaf::entropy"]}
{"id": "C118", "title": "Openings asked for in any order do not tell which of two chosen sets of messages were committed to", "statement": "An adversary hands over pairs of sets of messages, asks hashes, and asks for proofs, partially revealed blocks and the commitment of any pair handed over so far, all in any order and depending on everything it has seen; always the first or always the second sets are committed to, each with fresh 64-bit entropy. The only condition is that each opening shows messages common to both sets of its pair and conceals only subtrees which have an empty slot in both trees or are the same in both. With q hashes, v openings, r pairs and trees of depth at most D it tells the two cases apart with advantage at most r(4a/2^64 + 2(a + 2^64 w)^2/2^256) where w = 2*2^D+2 and a = q+v(3*2^D+2). With 2^40 hashes, 2^20 openings, 2^10 pairs and trees of depth 16 this is at most 2^-11. Every such adversary gets exactly one answer for every hash function and choice of entropies. Openings which are allowed one by one are also allowed together, and conversely.", "quantifier": "all adaptive adversaries (trees of questions for hashes, of pairs of sources and of openings of any of them), all pairs of valid sources with drawn entropy, universes of strings", "why_tests_cant": "Quantifies over all adaptive adversaries and all hash functions; sources and openings may depend on what was shown before, so no fixed set of inputs covers them.", "anchors": ["commit_verify/src/mpc/block.rs: MerkleBlock::from, conceal_except, to_merkle_proof", "commit_verify/src/mpc/tree.rs: try_commit, MerkleTree::commit_encode, root", "commit_verify/src/mpc/atoms.rs: Leaf::entropy"]}
{"id": "C119", "title": "A concealed message is as hard to find as to guess", "statement": "Any number of commitments contain the same message for a protocol, each with any entropy, depth and other messages, all of which the adversary knows. The adversary asks q hashes and, adaptively, any number of proofs, partially revealed blocks and commitments of any of them which do not reveal this protocol, and ends with an answer about the message. Over all hash functions and all candidates S for the message, the answer is right in at most a fraction (q+g)/|S| of the cases, where g is the largest number of candidates for which one answer is right: the number and kind of the openings do not matter, and entropy is not needed. So the message itself is found with chance at most (q+1)/|S|, less than 2^-128 for 2^128 hashes among all messages, and a property which half of the candidates have is told with chance at most 1/2 + q/|S|. This is sharp: from the proof of the neighbouring protocol q+1 hashes find the message among q+1 candidates unless hashes collide. Every such adversary gets exactly one answer for each message and hash function.", "quantifier": "all adaptive adversaries (trees of questions for hashes and openings, unbounded in the latter), all lists of valid sources, entropies, protocols, candidate sets, universes of strings", "why_tests_cant": "Quantifies over all adaptive adversaries and counts all hash functions and all candidates for the message.", "anchors": ["commit_verify/src/mpc/block.rs: MerkleBlock::from, conceal_except, to_merkle_proof", "commit_verify/src/mpc/tree.rs: try_commit, MerkleTree::commit_encode, root", "commit_verify/src/mpc/atoms.rs: Leaf::inhabited"]}
{"id": "C120", "title": "When two proofs contain the same hash", "statement": "Two proofs, of any protocols in any two commitments (or one), contain the same hash exactly if it is the hash of subtrees at the same height which hold the same things slot by slot, a protocol with its message or an empty slot with its entropy and position, in trees of the same depth unless the subtree is a single slot; otherwise two of the strings hashed for the commitments collide. Hence whoever holds proofs of one protocol in two commitments sees whether the neighbouring message has changed, whatever the entropies; a subtree with an empty slot is recognised only in a commitment with the same entropy at the same place; and two proofs of one commitment share exactly the hashes above the point where their ways join.", "quantifier": "all hash functions, pairs of valid sources, entropies, protocols, heights", "why_tests_cant": "Quantifies over all hash functions and all pairs of commitments; tests compare a few proofs.", "anchors": ["commit_verify/src/mpc/block.rs: to_merkle_proof, conceal_except, TreeNode::with", "commit_verify/src/mpc/atoms.rs: Leaf", "commit_verify/src/merkle.rs: MerkleNode"]}
{"id": "C121", "title": "Committing to a decoded block without debug assertions: exact domain", "statement": "In a build without debug assertions, commit_id of a representable block returns a value exactly if the cross-section is the frontier of a complete tree followed by frontiers of subtrees which the concealing passes aggregate into their roots and leave apart: each subtree starts at a leaf number divisible by its width (nodes below the leaves counting as nothing), roots of equal depth beside each other are inner nodes or leaves of the tree that are no siblings, and nodes one level below the leaves do not meet; in particular no second root may touch the first. The value is the commitment of the first tree, and the division into subtrees is unique. Everything else panics. With C17 this gives the exact domain for both profiles.", "quantifier": "all hash functions, representable blocks of any depth and any cross-section", "why_tests_cant": "Both directions quantify over all cross-sections up to 2^32-1 nodes, including ones whose leaf numbers wrap around 2^32.", "anchors": ["commit_verify/src/mpc/block.rs: MerkleBlock::conceal_except, MerkleBlock::conceal, commit_id"]}
{"id": "C122", "title": "Concealing any representable block: exact outcome in both profiles", "statement": "For every representable block and every list of known protocol ids, conceal_except returns exactly if the cross-section, once the leaves not listed are replaced with their hashes, divides into kept leaves and fully concealed subtrees that start at leaf numbers divisible by their widths and whose roots rest beside each other: roots of equal depth with no leaf between them are nodes of the tree and no siblings, and nodes one level below the leaves do not meet. With debug assertions it is required as well that no root lies below the leaves, that the widths of the roots sum to less than 2^32, and that they sum to the width of the tree if anything was aggregated. The division is unique; the block becomes its kept leaves and roots, with the entropy removed, and the returned number is that of the leaves concealed plus that of the nodes aggregated. Everything else panics. Concealing the result again changes nothing and returns 0.", "quantifier": "all hash functions, representable blocks of any depth and any cross-section, both profiles, all lists of known ids", "why_tests_cant": "Both directions quantify over all cross-sections up to 2^32-1 nodes and all id lists; most such blocks can only be obtained by decoding.", "anchors": ["commit_verify/src/mpc/block.rs: MerkleBlock::conceal_except"]}
{"id": "C123", "title": "Extracting a proof from any representable block: exact outcome in both profiles", "statement": "For every representable block and every protocol id it reveals, to_merkle_proof returns a proof exactly if concealing everything else returns (C122) and, with debug assertions, the concealed nodes which remain lie at different depths, as many as the tree has levels. The path consists of the last of the remaining nodes at each depth, from the root down; the position is the one prescribed for the id. into_known_proofs returns exactly if every extraction does. Even debug builds extract proofs from blocks which have no commitment (refutation): a proof which opens a commitment of which the block never was a part.", "quantifier": "all hash functions, representable blocks of any depth and any cross-section, both profiles", "why_tests_cant": "Both directions quantify over all cross-sections up to 2^32-1 nodes; ill-formed ones are only obtained by decoding and are not in the tests.", "anchors": ["commit_verify/src/mpc/block.rs: MerkleBlock::to_merkle_proof, into_merkle_proof, into_known_proofs"]}
{"id": "C124", "title": "Merging with a block which carries nodes after its tree, without debug assertions: exact outcome", "statement": "For all representable blocks with equal commitments, at most one of which has nodes after its complete tree, merge_reveal of a build without debug assertions either finds a hash collision, or succeeds exactly if these nodes without the first one can follow the joined tree (they never aggregate, and the leaves below all nodes number the tree's width modulo 2^32) and then returns precisely the joined tree followed by them, and panics otherwise. For all representable blocks, with or without further nodes, as long as the leaves below the nodes of both blocks together number less than 2^32 more than those of the two trees, so that the sum cannot wrap: a merge reveals nothing but committed messages if the commitment was made by the library, and returns precisely the join of the two trees if no node is deeper than the leaves. Both conditions are needed (refutations): with a sum one above the bound the merged block is ill-formed, and if the committer is not trusted and nodes may be deeper than the leaves, a block of five nodes suffices to add a message.", "quantifier": "all hash functions, representable blocks of any depth and cross-section, sources, remainders", "why_tests_cant": "The nodes after the tree are arbitrary up to 2^32-1 of them; blocks with such nodes are obtained only by decoding, and only builds without debug assertions reach the code.", "anchors": ["commit_verify/src/mpc/block.rs: MerkleBlock::merge_reveal"]}
{"id": "C125", "title": "What a receiver must check before merging in blocks from untrusted parties", "statement": "Let a commitment be made by the library, and let a receiver accept a first block or proof of it, then merge in any number of blocks and proofs received as bytes, conceal, merge and extract proofs in any order. With debug assertions the received blocks need no check beyond what merge_reveal does (only the depths of the nodes of a first block are checked). Without debug assertions it suffices that no node of a received block is deeper than the leaves and that the leaves below all its nodes number less than 2^32 (exactly 2^depth for a first block). Then, unless a string hashed for what was received collides with one hashed for the tree, what is held is what a session with well-formed blocks only would hold: it has the commitment, depth and cofactor of the tree, is well-formed, reveals only committed messages, concealing it never panics, two blocks held merge to the union of their messages, and the proofs extracted are those of the tree. The check refuses no well-formed block, and merging in a well-formed block of the commitment adds all its messages. For K strings hashed for commitments made beforehand, an adversary with q hash queries who sends k bytes in all misleads such a receiver (in the sense of C112) for at most a fraction (K(K-1) + 2K(q+k))/2^257 of all hash functions. The check of depths is needed: a block of three nodes makes the held block ill-formed without it (refutation).", "quantifier": "all hash functions, both build modes, all sources, all byte strings received, all sequences of operations", "why_tests_cant": "Arbitrary sequences of operations with arbitrary blocks chosen by an adversary; a sound check cannot be established by trying blocks.", "anchors": ["commit_verify/src/mpc/block.rs: MerkleBlock::merge_reveal, merge_reveal_path, conceal_except, to_merkle_proof"]}
