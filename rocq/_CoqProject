-Q theories Verif
theories/PyBase.v
theories/Schema.v
theories/Encoder.v
theories/Decoder.v
theories/TestUtil.v
theories/TestVectors.v
theories/ModelTests.v
theories/BitFacts.v
theories/Stream.v
theories/Prims.v
theories/Spec.v
theories/SimpleTypes.v
theories/RoundTrip.v
theories/Reading.v
theories/Totality.v
theories/PropsRoundTrip.v
theories/Layout.v
theories/Sequences.v
theories/Defaults.v
theories/Versions.v
theories/Robust.v
theories/Constraints.v
theories/Valid.v
theories/Dict.v
theories/Objects.v
theories/Dicts.v
theories/Generator.v
theories/Ordering.v
theories/Generation.v
theories/X691.v
theories/Conform.v
theories/Tells.v
theories/Emit.v
theories/GoldenVectors.v
theories/Exec.v
theories/GoldenTests.v
theories/Meaning.v
theories/Subtypes.v
theories/GoldenSchemas.v
theories/Modules.v
theories/FineCheck.v
theories/Generated.v
theories/GeneratedFaults.v
theories/Grammar.v
theories/Fast.v
theories/GrammarTests.v
theories/Texts.v
theories/Tokens.v
theories/Reads.v
theories/Nests.v
theories/ReadTypes.v
theories/ReadBodies.v
theories/ReadModules.v
theories/ReadTexts.v
theories/Settled.v
theories/Written.v
theories/WrittenTests.v
theories/GrammarFaults.v
theories/Agreement.v
theories/Transcript.v
theories/Accepted.v
theories/Exact.v
theories/Relay.v
theories/Growth.v
theories/Leftovers.v
theories/Inflation.v
theories/Faults.v
theories/Counted.v
theories/Effort.v
theories/Parses.v
theories/Repeats.v
theories/Lending.v
theories/Borrow.v
theories/Names.v
theories/Tight.v
theories/Sharp.v
theories/Shift.v
theories/Files.v
theories/Items.v
theories/Gaps.v
theories/Combine.v
theories/Spellings.v
theories/Extent.v
theories/Safe.v
theories/Standard.v
theories/Peers.v
theories/Parties.v
theories/Mild.v
theories/Shifted.v
theories/Received.v
theories/Hops.v
theories/Documented.v
theories/Printed.v
theories/Printing.v
theories/TextOut.v
theories/Imported.v
theories/Delivered.v
